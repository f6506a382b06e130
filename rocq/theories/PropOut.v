(** Property C88: unquoting outside of quasiquote. *)
Require Import String Ascii List ZArith Bool Lia.
Require Import PArith FMapPositive.
From Verif Require Import Base CppString Num Token Value State Builtins Eval LispTop SpecRun SpecVal SpecNum SpecList SpecForm SpecMacro
  RunProofs FormProofs OutProofs.
Import ListNotations.

(** ** C88: unquoting outside of quasiquote *)
Theorem C88_atom : forall st s p name tok i v, In name [$"_unquote"; $"_unquotesplicing"] -> form st p name tok [P i (OVar v)] -> standard st s name -> settled v ->
  forall r st', evals p s st r st' <-> r = Val (Some v) /\ st' = noted st s tok.
Proof. exact outside_atom. Qed.
Print Assumptions C88_atom.
Theorem C88_list : forall st s p name tok i l es, In name [$"_unquote"; $"_unquotesplicing"] -> form st p name tok [P i (OList l)] -> standard st s name -> vec_at st l = Some es ->
  exists v, evals p s st (Val (Some v)) (noted st s tok) /\ is_list_at (noted st s tok) v l es.
Proof. exact outside_list. Qed.
Print Assumptions C88_list.
(** The naive claim: outside of a template, unquoting evaluates its operand. *)
Theorem C88_evaluates_refuted : exists v w st1 st2, runs false false $"(do (def x 5) (str (_unquote x)))" [] fresh (Val (Some v)) st1 /\ is_str v $"x" /\
  runs false false $"(do (def x 5) (str ,x))" [] fresh (Val (Some w)) st2 /\ is_str w $"x".
Proof. exact not_evaluated. Qed.
Print Assumptions C88_evaluates_refuted.
(** The expressions (_unquote x) and (_unquotesplicing (_unquote x)). *)
Example C88_ex : form out_st (code_ 1 90) $"_unquote" None [sym_ 72 $"x"] /\ standard out_st main_sid $"_unquote" /\ settled (mkv TSym (OString $"x")) /\
  form out_st (code_ 1 91) $"_unquotesplicing" None [code_ 72 90] /\ standard out_st main_sid $"_unquotesplicing" /\ vec_at out_st 90%positive = Some [sym_ 71 $"_unquote"; sym_ 72 $"x"].
Proof. exact ex_outside. Qed.
