(** Properties C71 to C73: spliced arguments, apply, evalstr and rval, and assignment to places. *)
Require Import String Ascii List ZArith Bool Lia.
Require Import PArith FMapPositive.
From Verif Require Import Base CppString Num Token Value State Builtins Eval LispTop SpecRun SpecVal SpecList SpecForm SpecCall
  RunProofs BuiltinProofs ErrProofs FormProofs CallProofs.
Import ListNotations.

(** ** C71: spliced arguments of a call *)
Theorem C71_call : forall st s p name tok args args0 args1 st1 f o st', form st p name tok args -> means st s name f -> fn_sp f = false ->
  Forall2 (looked_up st s) args args0 -> spliced s args0 (noted st s tok) args1 st1 ->
  evals p s st o st' <-> calls f args1 s st1 o st'.
Proof. exact spliced_call. Qed.
Print Assumptions C71_call.
Theorem C71_rest_refuted : exists st', runs false false $"(+ `,@(list 1 2) 3)" [] fresh (Undef UBNullDeref) st'.
Proof. exact splice_null. Qed.
Print Assumptions C71_rest_refuted.
Example C71_ex : form call_st (code_ 1 73) $"+" None [int_ 72 10; sym_ 73 $"m"] /\ (exists f, builtin_fn $"+" = Some f /\ fn_sp f = false /\ means call_st main_sid $"+" f) /\
  exists q a x b y, Forall2 (looked_up call_st main_sid) [int_ 72 10; sym_ 73 $"m"] [int_ 72 10; q] /\
    spliced main_sid [int_ 72 10; q] call_st [int_ 72 10; P a (OVar x); P b (OVar y)] call_st /\ is_int x 1 /\ is_int y 2.
Proof.
  split; [apply (form_by _ _ _ 71); vm_compute; reflexivity|].
  split. { assert (S : standard call_st main_sid $"+") by (apply std_main; vm_compute; repeat split; reflexivity).
    destruct S as (f & B & M). exists f. split; [exact B|]. split; [|exact M]. vm_compute in B. injection B as <-. reflexivity. }
  assert (SE : scope_exists call_st main_sid) by (apply main_here; vm_compute; exact Logic.I).
  eexists. eexists. eexists. eexists. eexists. split; [apply Forall2_cons; [apply lu_value; discriminate|]; apply Forall2_cons; [eapply lu_var; [exists 73%positive; eexists; repeat split|apply se_own; [exact SE|vm_compute; reflexivity]]|apply Forall2_nil]|].
  split; [|split; [|]]. apply sp_after_value; [left; discriminate|]. eapply (sp_value main_sid _ _ [] call_st [_; _]). split; [reflexivity|]. left. eexists. split; [reflexivity|]. split; [reflexivity|]. vm_compute. reflexivity.
  all: split; reflexivity.
Qed.

(** ** C72: apply, evalstr and rval *)
Theorem C72_apply : forall a p s st fv f st1 es, evals a s st (Val (Some fv)) st1 -> is_fn fv f -> list_arg st1 p es ->
  forall o st', builtin_call $"apply" [a; p] s st o st' <-> calls f es s st1 o st'.
Proof. exact apply_calls. Qed.
Print Assumptions C72_apply.
Theorem C72_apply_no_list : forall a i v s st r st1, evals a s st (Val r) st1 -> v_ty v <> TList -> v_ty v <> TNil -> printable st1 s ->
  exists e, builtin_call $"apply" [a; P i (OVar v)] s st (Throw (ELisp $"Expected list as arguments in apply" e)) st1.
Proof. exact apply_no_list. Qed.
Print Assumptions C72_apply_no_list.
Theorem C72_apply_no_function : forall a p s st v st1 es, evals a s st (Val (Some v)) st1 -> v_ty v <> TFun -> list_arg st1 p es ->
  forall o st', builtin_call $"apply" [a; p] s st o st' -> st' = st1 /\ forall r, o <> Val r.
Proof. exact apply_no_function. Qed.
Print Assumptions C72_apply_no_function.
Theorem C72_apply_fails : forall a p s st o o' st1 es, evals a s st o st1 -> fails o o' -> (forall r, o = Val r -> list_arg st1 p es) -> builtin_call $"apply" [a; p] s st o' st1.
Proof. exact apply_fails. Qed.
Print Assumptions C72_apply_fails.
Theorem C72_evalstr : forall i v t s st sc r st1 sc1, is_str v t -> scope_at st s = Some sc ->
  runs_in s t ($"<evalstr>:" ++ s_module sc ++ $":" ++ t) (scope_becomes s (set_ineval true sc) st) (Val r) st1 -> scope_at st1 s = Some sc1 ->
  builtin_call $"evalstr" [P i (OVar v)] s st (Val r) (scope_becomes s (set_module (s_module sc) (set_ineval false sc1)) st1).
Proof. exact evalstr_value. Qed.
Print Assumptions C72_evalstr.
Theorem C72_evalstr_fails : forall i v t s st sc o st1, is_str v t -> scope_at st s = Some sc ->
  runs_in s t ($"<evalstr>:" ++ s_module sc ++ $":" ++ t) (scope_becomes s (set_ineval true sc) st) o st1 -> (forall r, o <> Val r) ->
  builtin_call $"evalstr" [P i (OVar v)] s st o st1.
Proof. exact evalstr_fails. Qed.
Print Assumptions C72_evalstr_fails.
Theorem C72_evalstr_ends : forall i v t s st sc o st', is_str v t -> scope_at st s = Some sc -> builtin_call $"evalstr" [P i (OVar v)] s st o st' ->
  exists o1 st1, runs_in s t ($"<evalstr>:" ++ s_module sc ++ $":" ++ t) (scope_becomes s (set_ineval true sc) st) o1 st1.
Proof. exact evalstr_ends. Qed.
Print Assumptions C72_evalstr_ends.
Theorem C72_evalstr_main : forall code m st o st', runs_in main_sid code m st o st' <-> runs false false code m st o st'.
Proof. exact runs_main. Qed.
Print Assumptions C72_evalstr_main.
Theorem C72_rval : forall st s p tok i la r st1 sc sc1, form st p $"rval" tok [P i (OList la)] -> standard st s $"rval" ->
  scope_at (noted st s tok) s = Some sc -> evals (P i (OList la)) s (scope_becomes s (set_needlv false sc) (noted st s tok)) (Val r) st1 -> scope_at st1 s = Some sc1 ->
  evals p s st (Val r) (scope_becomes s (set_needlv (s_needlv sc) sc1) st1).
Proof. exact rval_value. Qed.
Print Assumptions C72_rval.
Example C72_apply_ex : exists f fv st1 v es, builtin_fn $"+" = Some f /\ evals (sym_ 1 $"+") main_sid call_st (Val (Some fv)) st1 /\ is_fn fv f /\
  var_at call_st main_sid $"l" = Some v /\ list_arg st1 v es /\ length es = 3%nat /\ printable st1 main_sid.
Proof.
  eexists. eexists. eexists. eexists. eexists. split; [vm_compute; reflexivity|]. split; [apply (evals_by 5); [vm_compute; reflexivity|discriminate]|].
  split; [split; reflexivity|]. split; [vm_compute; reflexivity|]. split; [eexists; eexists; split; [reflexivity|left; eexists; split; [reflexivity|split; [reflexivity|vm_compute; reflexivity]]]|].
  split; [reflexivity|]. apply main_scope. vm_compute. repeat split; try discriminate; intuition discriminate.
Qed.
Example C72_evalstr_ex : let sc := scope_of fresh main_sid in scope_at fresh main_sid = Some sc /\ exists st1,
  runs_in main_sid $"(+ 1 2)" ($"<evalstr>:" ++ s_module sc ++ $":" ++ $"(+ 1 2)") (scope_becomes main_sid (set_ineval true sc) fresh) (Val (Some (vint 3))) st1 /\ scope_at st1 main_sid = Some (scope_of st1 main_sid).
Proof. split; [vm_compute; reflexivity|]. eexists. split; [apply runs_main, (runs_by 30); [vm_compute; reflexivity|discriminate]|apply scope_of_at; vm_compute; discriminate]. Qed.
Example C72_rval_ex : let sc := scope_of call_st main_sid in form call_st (code_ 1 78) $"rval" None [code_ 72 72] /\ standard call_st main_sid $"rval" /\ scope_at call_st main_sid = Some sc /\
  exists w st1, evals (code_ 72 72) main_sid (scope_becomes main_sid (set_needlv false sc) call_st) (Val (Some w)) st1 /\ is_int w 8 /\ scope_at st1 main_sid = Some (scope_of st1 main_sid).
Proof.
  split; [apply (form_by _ _ _ 71); vm_compute; reflexivity|]. split; [apply std_main; vm_compute; repeat split; reflexivity|]. split; [apply scope_of_at; vm_compute; discriminate|].
  eexists. eexists. split; [apply (evals_by 20); [vm_compute; reflexivity|discriminate]|]. split; [split; reflexivity|apply scope_of_at; vm_compute; discriminate].
Qed.

(** ** C73: assignment to places *)
Theorem C73_place : forall st s p tok i la a1 name tok0 args args0 w pos l es0 v st1 es es', form st p $"setf" tok [P i (OList la); a1] -> standard st s $"setf" -> plain a1 ->
  form st (P i (OList la)) name tok0 args -> standard st s name -> Forall2 (looked_up st s) args args0 -> place_args name args0 w pos -> settled w -> is_list_at st w l es0 ->
  evals a1 s (noted (noted st s tok) s tok0) (Val (Some v)) st1 -> vec_at st1 l = Some es -> replaced es (pos (length es)) (P (st_nid st1) (OVar v)) es' ->
  exists st', evals p s st (Val (Some v)) st' /\ list_becomes st1 st' l es'.
Proof. exact setf_place. Qed.
Print Assumptions C73_place.
Theorem C73_out_of_range : forall st s p tok i la a1 name tok0 args args0 w pos l es0 v st1 es, form st p $"setf" tok [P i (OList la); a1] -> standard st s $"setf" -> plain a1 ->
  form st (P i (OList la)) name tok0 args -> standard st s name -> Forall2 (looked_up st s) args args0 -> place_args name args0 w pos -> settled w -> is_list_at st w l es0 ->
  evals a1 s (noted (noted st s tok) s tok0) (Val (Some v)) st1 -> vec_at st1 l = Some es -> (pos (length es) < 0 \/ Z.of_nat (length es) <= pos (length es))%Z ->
  exists st', evals p s st (Undef UBIndex) st'.
Proof. exact setf_no_place. Qed.
Print Assumptions C73_out_of_range.
Theorem C73_computed : forall st s p tok i la a1 w st1 sc sc1 v st3 name t, form st p $"setf" tok [P i (OList la); a1] -> standard st s $"setf" -> plain a1 ->
  scope_at (noted st s tok) s = Some sc -> evals (P i (OList la)) s (asked (noted st s tok) s) (Val (Some w)) st1 -> scope_at st1 s = Some sc1 ->
  is_sym w name \/ is_str w name -> name <> [] ->
  evals a1 s (scope_becomes s (set_needlv (s_needlv sc) sc1) st1) (Val (Some v)) st3 -> assigns st3 s name t ->
  exists st', evals p s st (Val (Some v)) st' /\ var_becomes st3 st' t name v.
Proof. exact setf_computed. Qed.
Print Assumptions C73_computed.
Theorem C73_place_fails : forall st s p tok i la a1 o st1, form st p $"setf" tok [P i (OList la); a1] -> standard st s $"setf" -> plain a1 ->
  evals (P i (OList la)) s (asked (noted st s tok) s) o st1 -> (forall r, o <> Val r) -> evals p s st o st1.
Proof. exact place_fails. Qed.
Print Assumptions C73_place_fails.
Theorem C73_after_failure_refuted : exists w st1 r st2, saves false false false $"(setf (nofunction) 1)" [] fresh (Val (Some w)) st1 /\
  runs false false $"(str (first (list 1 2)))" [] st1 (Val (Some r)) st2 /\ is_str r $"?".
Proof. exact left_asking. Qed.
Print Assumptions C73_after_failure_refuted.
Theorem C73_nested_refuted : exists e st1 st2, runs false false $"(def l (list 1 2 3)) (def k (list l 0)) (setf (first (first k)) 5)" [] fresh (Throw e) st1 /\
  exists v, runs false false $"(def l (list 1 2 3)) (def k (list l 0)) (setf (first (rval (first k))) 5) (str l)" [] fresh (Val (Some v)) st2 /\ is_str v $"(5 2 3)".
Proof. exact place_of_place. Qed.
Print Assumptions C73_nested_refuted.
Example C73_place_ex : form call_st (code_ 1 71) $"setf" None [code_ 72 72; int_ 73 5] /\ standard call_st main_sid $"setf" /\
  form call_st (code_ 72 72) $"nth" None [int_ 72 1; sym_ 73 $"l"] /\ standard call_st main_sid $"nth" /\
  exists w i l es es', Forall2 (looked_up call_st main_sid) [int_ 72 1; sym_ 73 $"l"] [int_ 72 1; P i (OVar w)] /\
    place_args $"nth" [int_ 72 1; P i (OVar w)] w (fun _ => 1%Z) /\ settled w /\ is_list_at call_st w l es /\
    evals (int_ 73 5) main_sid call_st (Val (Some (vint 5))) call_st /\ replaced es 1 (P (st_nid call_st) (OVar (vint 5))) es'.
Proof.
  split; [apply (form_by _ _ _ 71); vm_compute; reflexivity|]. split; [apply std_main; vm_compute; repeat split; reflexivity|].
  split; [apply (form_by _ _ _ 71); vm_compute; reflexivity|]. split; [apply std_main; vm_compute; repeat split; reflexivity|].
  assert (SE : scope_exists call_st main_sid) by (apply main_here; vm_compute; exact Logic.I).
  eexists. eexists. eexists. eexists. eexists. split; [apply Forall2_cons; [apply lu_value; discriminate|]; apply Forall2_cons; [eapply lu_var; [exists 73%positive; eexists; repeat split|apply se_own; [exact SE|vm_compute; reflexivity]]|apply Forall2_nil]|].
  split; [apply pa_nth; split; reflexivity|]. split; [left; discriminate|]. split; [split; [reflexivity|split; [reflexivity|vm_compute; reflexivity]]|].
  split; [apply eval_atom; discriminate|]. eexists [_], _, [_]. split; [reflexivity|]. split; reflexivity.
Qed.
Example C73_computed_ex : let sc := scope_of call_st main_sid in form call_st (code_ 1 74) $"setf" None [code_ 72 75; int_ 73 5] /\ scope_at call_st main_sid = Some sc /\
  exists w st1, evals (code_ 72 75) main_sid (asked call_st main_sid) (Val (Some w)) st1 /\ scope_at st1 main_sid = Some (scope_of st1 main_sid) /\ is_sym w $"l" /\
  (let st2 := scope_becomes main_sid (set_needlv (s_needlv sc) (scope_of st1 main_sid)) st1 in evals (int_ 73 5) main_sid st2 (Val (Some (vint 5))) st2 /\ assigns st2 main_sid $"l" main_sid).
Proof.
  cbv zeta. split; [apply (form_by _ _ _ 71); vm_compute; reflexivity|]. split; [apply scope_of_at; vm_compute; discriminate|].
  eexists. eexists. split; [apply (evals_by 20); [vm_compute; reflexivity|discriminate]|]. split; [apply scope_of_at; vm_compute; discriminate|]. split; [split; reflexivity|].
  split; [apply eval_atom; discriminate|]. eapply as_own; [apply main_here; vm_compute; exact Logic.I|vm_compute; reflexivity].
Qed.
Example C73_fails_ex : form call_st (code_ 1 76) $"setf" None [code_ 72 77; int_ 73 5] /\ exists e st1, evals (code_ 72 77) main_sid (asked call_st main_sid) (Throw e) st1.
Proof. split; [apply (form_by _ _ _ 71); vm_compute; reflexivity|]. eexists. eexists. apply (evals_by 20); [vm_compute; reflexivity|discriminate]. Qed.
