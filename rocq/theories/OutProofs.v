(** Unquoting outside of quasiquote. *)
Require Import String Ascii List ZArith Bool Lia.
Require Import PArith FMapPositive.
From Verif Require Import Base CppString Num Token Value State Show ScopeOps Builtins Table Eval LispTop SpecLex SpecParse SpecRun SpecVal SpecNum SpecList SpecForm SpecMacro.
From Verif Require Import Wf RunProofs BuiltinProofs ErrProofs FormProofs MacroProofs QuoteProofs.
Import ListNotations.

Lemma outside_is : forall st s p name tok i o, In name [$"_unquote"; $"_unquotesplicing"] -> form st p name tok [P i o] -> standard st s name -> plain (P i o) ->
  forall r st', evals p s st r st' <-> r = Val (Some (var_of_obj o)) /\ st' = noted st s tok.
Proof.
  intros st s p name tok i o I F S PL r st'.
  assert (K : forall b, In b [BUnquote; BUnquoteSplicing] -> forall n st0, call_builtin (run n) b [P i o] s st0 = (Val (Some (var_of_obj o)), st0)).
  { intros b [<-|[<-|[]]] n st0; reflexivity. }
  destruct I as [<-|[<-|[]]].
  - rewrite (special_builtin _ _ _ _ _ _ BUnquote F S); [|vm_compute; reflexivity|vm_compute; reflexivity|constructor; [exact PL|constructor]].
    split; [intros (n & H & N); rewrite K in H by (left; reflexivity); injection H as <- <-; auto|intros (-> & ->); exists O; split; [apply K; left; reflexivity|discriminate]].
  - rewrite (special_builtin _ _ _ _ _ _ BUnquoteSplicing F S); [|vm_compute; reflexivity|vm_compute; reflexivity|constructor; [exact PL|constructor]].
    split; [intros (n & H & N); rewrite K in H by (right; left; reflexivity); injection H as <- <-; auto|intros (-> & ->); exists O; split; [apply K; right; left; reflexivity|discriminate]].
Qed.
Theorem outside_atom : forall st s p name tok i v, In name [$"_unquote"; $"_unquotesplicing"] -> form st p name tok [P i (OVar v)] -> standard st s name -> settled v ->
  forall r st', evals p s st r st' <-> r = Val (Some v) /\ st' = noted st s tok.
Proof. intros st s p name tok i v I F S PL. exact (outside_is st s p name tok i (OVar v) I F S PL). Qed.
Theorem outside_list : forall st s p name tok i l es, In name [$"_unquote"; $"_unquotesplicing"] -> form st p name tok [P i (OList l)] -> standard st s name -> vec_at st l = Some es ->
  exists v, evals p s st (Val (Some v)) (noted st s tok) /\ is_list_at (noted st s tok) v l es.
Proof.
  intros st s p name tok i l es I F S V. exists (mkv TList (OList l)). split; [apply (outside_is st s p name tok i (OList l) I F S Logic.I); split; reflexivity|].
  split; [reflexivity|]. split; [reflexivity|]. rewrite <- V. unfold noted. destruct tok; [|reflexivity]. destruct (scope_at st s); reflexivity.
Qed.
Lemma not_evaluated : exists v w st1 st2, runs false false $"(do (def x 5) (str (_unquote x)))" [] fresh (Val (Some v)) st1 /\ is_str v $"x" /\
  runs false false $"(do (def x 5) (str ,x))" [] fresh (Val (Some w)) st2 /\ is_str w $"x".
Proof. eexists. eexists. eexists. eexists. split; [apply (runs_by 60); [vm_compute; reflexivity|discriminate]|]. split; [split; reflexivity|]. split; [apply (runs_by 60); [vm_compute; reflexivity|discriminate]|split; reflexivity]. Qed.
(** ** Cases for the theorems *)
Definition out_st : state := with_code [(90%positive, [sym_ 71 $"_unquote"; sym_ 72 $"x"]); (91%positive, [sym_ 71 $"_unquotesplicing"; code_ 72 90])] fresh.
Lemma ex_outside : form out_st (code_ 1 90) $"_unquote" None [sym_ 72 $"x"] /\ standard out_st main_sid $"_unquote" /\ settled (mkv TSym (OString $"x")) /\
  form out_st (code_ 1 91) $"_unquotesplicing" None [code_ 72 90] /\ standard out_st main_sid $"_unquotesplicing" /\ vec_at out_st 90%positive = Some [sym_ 71 $"_unquote"; sym_ 72 $"x"].
Proof.
  split; [apply (form_by _ _ _ 71); vm_compute; reflexivity|]. split; [apply std_main; vm_compute; repeat split; reflexivity|]. split; [right; split; discriminate|].
  split; [apply (form_by _ _ _ 71); vm_compute; reflexivity|]. split; [apply std_main; vm_compute; repeat split; reflexivity|vm_compute; reflexivity].
Qed.
