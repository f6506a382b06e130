(** Property C86: the place an error names. *)
Require Import String Ascii List ZArith Bool Lia.
Require Import PArith FMapPositive.
From Verif Require Import Base CppString Num Token Value State Show Builtins Eval LispTop SpecLex SpecParse SpecRun SpecVal SpecNum SpecList SpecForm SpecText SpecIo SpecMix SpecShow SpecPlace
  RunProofs FormProofs PlaceProofs.
Import ListNotations.

(** ** C86: the place an error names *)
Theorem C86_arity : forall name shown n args s st, In (name, (shown, n)) fixed_arity -> length args <> n -> printable st s ->
  exists i, builtin_call name args s st (Throw (ELisp (miscounted shown (length args) (count_text n)) i)) st /\ names_place st s i.
Proof. exact arity_place. Qed.
Print Assumptions C86_arity.
Example C86_arity_ex : In ($"def", ($"def", 2%nat)) fixed_arity /\ length [sym_ 72 $"x"] <> 2%nat /\ printable place_st main_sid.
Proof. split; [vm_compute; tauto|]. split; [discriminate|exact place_printable]. Qed.
Theorem C86_form : forall name shown n st s p k args, In (name, (shown, n)) fixed_arity -> option_map fn_sp (builtin_fn name) = Some true -> form st p name (Some k) args -> standard st s name -> Forall plain args ->
  length args <> n -> printable st s ->
  exists i sc st', evals p s st (Throw (ELisp (miscounted shown (length args) (count_text n)) i)) st' /\ scope_at st s = Some sc /\ ei_module i = s_module sc /\ position_of i (Some k) /\ exists d, stack_text st' 0 s d (ei_stack i).
Proof. exact form_place. Qed.
Print Assumptions C86_form.
Theorem C86_unbound : forall st s p tok a0 a1 name v st1, form st p $"setf" tok [a0; a1] -> standard st s $"setf" -> expr_sym a0 name -> name <> [] -> plain a1 ->
  evals a1 s (noted st s tok) (Val (Some v)) st1 -> unassignable st1 s name -> printable st1 s ->
  exists i st', evals p s st (Throw (ELisp ($"Symbol " ++ name ++ $" not found") i)) st' /\ same_data st1 st' /\ names_place st1 s i.
Proof. exact unbound_place. Qed.
Print Assumptions C86_unbound.
Theorem C86_item : forall st s p name tok before i v rest r st1, In name [$"do"; $"begin"] -> form st p name tok (before ++ P i (OVar v) :: rest) -> standard st s name -> Forall plain (before ++ P i (OVar v) :: rest) ->
  in_sequence s before (Some vundef) (noted st s tok) r st1 -> (before = [] \/ leaving st1 s false) -> printable st1 s ->
  exists e sc d, evals p s st (Throw (ELisp $"List expected in do" e)) st1 /\ scope_at st1 s = Some sc /\ ei_module e = s_module sc /\ position_of e (v_tok v) /\ stack_text st1 0 s d (ei_stack e).
Proof. exact item_place. Qed.
Print Assumptions C86_item.
(** The calls (def x) and (do (+ i 1) 5) with the positions of their symbols and numbers. *)
Example C86_form_ex : In ($"def", ($"def", 2%nat)) fixed_arity /\ option_map fn_sp (builtin_fn $"def") = Some true /\ form place_st (code_ 1 90) $"def" (Some (tok_at 13 16 2)) [sym_ 72 $"x"] /\ standard place_st main_sid $"def" /\
  Forall plain [sym_ 72 $"x"] /\ length [sym_ 72 $"x"] <> 2%nat /\ printable place_st main_sid.
Proof. exact ex_form. Qed.
Example C86_item_ex : exists v r st1, form place_st (code_ 1 91) $"do" None ([code_ 73 78] ++ [P 72 (OVar v)]) /\ v_tok v = Some (tok_at 16 17 2) /\ standard place_st main_sid $"do" /\ Forall plain ([code_ 73 78] ++ [P 72 (OVar v)]) /\
  in_sequence main_sid [code_ 73 78] (Some vundef) (noted place_st main_sid None) r st1 /\ leaving st1 main_sid false /\ printable st1 main_sid.
Proof. exact ex_item. Qed.
Example C86_unbound_ex : form code_st (code_ 1 82) $"setf" None [sym_ 72 $"unbound"; int_ 73 3] /\ standard code_st main_sid $"setf" /\ expr_sym (sym_ 72 $"unbound") $"unbound" /\ plain (int_ 73 3) /\
  (exists v st1, evals (int_ 73 3) main_sid (noted code_st main_sid None) (Val (Some v)) st1 /\ unassignable st1 main_sid $"unbound" /\ printable st1 main_sid).
Proof. exact ex_unbound. Qed.
(** The same three errors in scripts. *)
Example C86_texts_ex : forall t m a b, In (t, m, a, b) [($"(setf x 5)", $"Symbol x not found", 13%Z, 17%Z); ($"(def x)", $"Bad argument count in def, has 1 expected 2", 13%Z, 16%Z); ($"(do 5)", $"List expected in do", 16%Z, 17%Z)] ->
  exists i st', runs false false ($"(def y 1)" ++ [c_nl] ++ $"  " ++ t) $"main" fresh (Throw (ELisp m i)) st' /\ ei_line i = 2%Z /\ ei_start i = a /\ ei_stop i = b /\ ei_module i = $"main" /\
    ei_stack i = $"       1 name=<main>                              lineno=2    module=main" ++ [c_nl].
Proof. exact ex_texts. Qed.
