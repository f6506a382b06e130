(** Properties C24, C25, C27 to C31, C41, C50, C51: names, assignment, special forms and calls. *)
Require Import String Ascii List ZArith Bool Lia.
Require Import PArith FMapPositive.
From Verif Require Import Base CppString Num Token Value State Builtins Eval LispTop SpecRun SpecVal SpecList SpecForm
  RunProofs ErrProofs FormProofs ClosProofs.
Import ListNotations.

(** ** C24: assignment *)
Theorem C24_setf : forall st s p tok a0 a1 name v st1 t, form st p $"setf" tok [a0; a1] -> standard st s $"setf" -> expr_sym a0 name -> name <> [] -> plain a1 ->
  evals a1 s (noted st s tok) (Val (Some v)) st1 -> assigns st1 s name t ->
  exists st', evals p s st (Val (Some v)) st' /\ var_becomes st1 st' t name v.
Proof. exact setf_sets. Qed.
Print Assumptions C24_setf.
Theorem C24_unbound : forall st s p tok a0 a1 name v st1, form st p $"setf" tok [a0; a1] -> standard st s $"setf" -> expr_sym a0 name -> name <> [] -> plain a1 ->
  evals a1 s (noted st s tok) (Val (Some v)) st1 -> unassignable st1 s name -> printable st1 s ->
  exists i st', evals p s st (Throw (ELisp ($"Symbol " ++ name ++ $" not found") i)) st' /\ same_data st1 st'.
Proof. exact setf_unbound. Qed.
Print Assumptions C24_unbound.
Example C24_ex : form code_st (code_ 1 77) $"setf" None [sym_ 72 $"i"; code_ 73 78] /\ standard code_st main_sid $"setf" /\
  expr_sym (sym_ 72 $"i") $"i" /\ assigns code_st main_sid $"i" main_sid /\
  (exists st1, evals (code_ 73 78) main_sid code_st (Val (Some (vint 1))) st1) /\
  unassignable code_st main_sid $"unbound" /\ printable code_st main_sid.
Proof.
  assert (SE : scope_exists code_st main_sid) by (apply main_here; vm_compute; exact I).
  split; [apply (form_by _ _ _ 71); vm_compute; reflexivity|].
  split; [apply std_main; vm_compute; repeat split; reflexivity|]. split; [exists 72%positive; eexists; repeat split|].
  split; [eapply as_own; [exact SE|vm_compute; reflexivity]|].
  split; [eexists; apply (evals_by 20); [vm_compute; reflexivity|discriminate]|].
  destruct (main_scope code_st) as (PR & UN & _); [vm_compute; repeat split; try discriminate; intuition discriminate|].
  split; [apply UN; vm_compute; reflexivity|exact PR].
Qed.

(** ** C25: reading back *)
Theorem C25_read_back : forall st st' s sc t name v, scope_at st s = Some sc -> scope_exists st (s_global sc) -> assigns st s name t -> var_becomes st st' t name v ->
  (t = s \/ t = s_global sc \/ var_at st (s_global sc) name = None) -> exists i, sees st' s name (Some (P i (OVar v))).
Proof. exact read_back. Qed.
Print Assumptions C25_read_back.
Theorem C25_stale : forall st st' s sc t name v w, scope_at st s = Some sc -> scope_exists st (s_global sc) -> assigns st s name t -> var_becomes st st' t name v ->
  t <> s -> t <> s_global sc -> var_at st (s_global sc) name = Some w -> sees st' s name (Some w).
Proof. exact stale_read. Qed.
Print Assumptions C25_stale.
Theorem C25_stale_refuted : exists v st',
  runs false false $"(do (gdef x 1) (defn f () (do (def x 2) (def g (lambda () (do (setf x 3) (+ x 0)))) (g))) (f))" [] fresh (Val (Some v)) st' /\ is_int v 1.
Proof. exact stale_run. Qed.
Print Assumptions C25_stale_refuted.
Example C25_ex : exists st', var_becomes code_st st' main_sid $"i" (vint 5) /\ assigns code_st main_sid $"i" main_sid.
Proof.
  assert (SE : scope_exists code_st main_sid) by (apply main_here; vm_compute; exact I).
  assert (A : assigns code_st main_sid $"i" main_sid) by (eapply as_own; [exact SE|vm_compute; reflexivity]).
  destruct (set_assigns code_st main_sid $"i" main_sid (vint 5)) as (st' & _ & B); [discriminate|exact A|]. exists st'. split; assumption.
Qed.

(** ** C27: def and gdef *)
Theorem C27_def : forall st s p tok a0 a1 name v st1, numbered st -> form st p $"def" tok [a0; a1] -> standard st s $"def" -> expr_sym a0 name -> plain a1 ->
  evals a1 s (noted st s tok) (Val (Some v)) st1 -> exists st', evals p s st (Val (Some v)) st' /\ var_becomes st1 st' s name v.
Proof. exact def_binds. Qed.
Print Assumptions C27_def.
Theorem C27_gdef : forall st s sc p tok a0 a1 name v st1, numbered st -> form st p $"gdef" tok [a0; a1] -> standard st s $"gdef" -> expr_sym a0 name -> plain a1 ->
  scope_at st s = Some sc -> evals a1 s (noted st s tok) (Val (Some v)) st1 ->
  exists st', evals p s st (Val (Some v)) st' /\ var_becomes st1 st' (s_global sc) name v.
Proof. exact gdef_binds. Qed.
Print Assumptions C27_gdef.
Example C27_ex : numbered code_st /\ form code_st (code_ 1 80) $"def" None [sym_ 72 $"i"; int_ 73 3] /\ standard code_st main_sid $"def" /\
  form code_st (code_ 1 81) $"gdef" None [sym_ 72 $"i"; int_ 73 3] /\ standard code_st main_sid $"gdef" /\
  evals (int_ 73 3) main_sid code_st (Val (Some (vint 3))) code_st /\ plain (int_ 73 3).
Proof.
  split; [unfold code_st; apply numbered_code, reachable_numbered, reach_eval, reach_init|].
  split; [apply (form_by _ _ _ 71); vm_compute; reflexivity|].
  split; [apply std_main; vm_compute; repeat split; reflexivity|].
  split; [apply (form_by _ _ _ 71); vm_compute; reflexivity|].
  split; [apply std_main; vm_compute; repeat split; reflexivity|]. split; [apply eval_atom; discriminate|]. left; discriminate.
Qed.

(** ** C28: calling a function written in Lisp *)
Theorem C28_call : forall f st s sc ds name modname fp body more args names, fn_code f = CClosure name modname (fp :: body :: more) ds ->
  scope_at st s = Some sc -> numbered st -> heap_numbered st -> scope_exists st (s_global sc) -> scope_exists st ds -> parameters st fp names ->
  exists st1 c, starts_call st st1 s c ds name names args /\
    (forall r st2, evals body c st1 (Val r) st2 -> exists st', unlinked st2 st' s c /\ calls f args s st (Val r) st') /\
    (forall o st2, evals body c st1 o st2 -> (forall r, o <> Val r) -> calls f args s st (handed_up o) st2) /\
    (forall o st', calls f args s st o st' -> exists o2 st2, evals body c st1 o2 st2).
Proof. exact closure_call. Qed.
Print Assumptions C28_call.
Example C28_ex : exists st i v f name modname fp body more, reachable st /\ var_at st main_sid $"f" = Some (P i (OVar v)) /\ is_fn v f /\
  fn_code f = CClosure name modname (fp :: body :: more) main_sid /\ parameters st fp [$"a"; $"b"].
Proof.
  exists (snd (eval_script 40 false false $"(defn f (a b) (+ a b))" [] fresh)). do 8 eexists.
  split; [apply reach_eval, reach_init|]. split; [vm_compute; reflexivity|]. split; [split; reflexivity|]. split; [reflexivity|].
  eexists. split; [left; eexists; eexists; split; [reflexivity|vm_compute; reflexivity]|].
  repeat (apply Forall2_cons; [eexists; eexists; split; [reflexivity|split; reflexivity]|]). apply Forall2_nil.
Qed.

(** ** C29: if *)
Theorem C29_branch : forall st s p tok c a rest v b st1, form st p $"if" tok (c :: a :: rest) -> standard st s $"if" -> (length rest <= 1)%nat ->
  Forall plain (c :: a :: rest) -> evals c s (noted st s tok) (Val (Some v)) st1 -> is_bool v b -> forall o st',
  evals p s st o st' <-> evals (if b then a else nth 0 rest PNull) s st1 o st'.
Proof. exact if_chooses. Qed.
Print Assumptions C29_branch.
Theorem C29_no_else : forall st s p tok c a v st1, form st p $"if" tok [c; a] -> standard st s $"if" -> Forall plain [c; a] ->
  evals c s (noted st s tok) (Val (Some v)) st1 -> is_bool v false -> forall o st', evals p s st o st' <-> (o = Val None /\ st' = st1).
Proof. exact if_no_else. Qed.
Print Assumptions C29_no_else.
Theorem C29_condition_fails : forall st s p tok c a rest o o' st1, form st p $"if" tok (c :: a :: rest) -> standard st s $"if" -> (length rest <= 1)%nat ->
  Forall plain (c :: a :: rest) -> evals c s (noted st s tok) o st1 -> hands_on o o' -> evals p s st o' st1.
Proof. exact if_condition_fails. Qed.
Print Assumptions C29_condition_fails.
Theorem C29_needs_boolean : forall st s p tok c a rest v st1, form st p $"if" tok (c :: a :: rest) -> standard st s $"if" -> (length rest <= 1)%nat ->
  Forall plain (c :: a :: rest) -> evals c s (noted st s tok) (Val (Some v)) st1 -> v_ty v <> TBool -> forall o st', evals p s st o st' ->
  st' = st1 /\ forall r, o <> Val r.
Proof. exact if_needs_boolean. Qed.
Print Assumptions C29_needs_boolean.
(** The branch not taken calls an unknown function. *)
Example C29_ex : form code_st (code_ 1 71) $"if" None [bool_ 72 true; int_ 73 1; code_ 74 74] /\ standard code_st main_sid $"if" /\
  Forall plain [bool_ 72 true; int_ 73 1; code_ 74 74] /\ evals (bool_ 72 true) main_sid code_st (Val (Some (vbool true))) code_st /\
  exists m i st', evals (code_ 74 74) main_sid code_st (Throw (ELisp m i)) st'.
Proof.
  split; [apply (form_by _ _ _ 71); vm_compute; reflexivity|].
  split; [apply std_main; vm_compute; repeat split; reflexivity|].
  split; [repeat (apply Forall_cons; [try exact I; left; discriminate|]); apply Forall_nil|]. split; [apply eval_atom; discriminate|].
  eexists. eexists. eexists. apply (evals_by 20); [vm_compute; reflexivity|discriminate].
Qed.

(** ** C30: and, or *)
Theorem C30_and : forall st s p name tok args, In name [$"and"; $"&&"] -> form st p name tok args -> standard st s name -> Forall plain args ->
  forall r st', evals p s st (Val r) st' <-> exists b, r = Some (vbool b) /\ conjunction s args (noted st s tok) b st'.
Proof. exact and_value. Qed.
Print Assumptions C30_and.
Theorem C30_and_fails : forall st s p name tok args, In name [$"and"; $"&&"] -> form st p name tok args -> standard st s name -> Forall plain args ->
  forall o st', conjunction_fails s args (noted st s tok) o st' -> evals p s st o st'.
Proof. exact and_fails. Qed.
Print Assumptions C30_and_fails.
Theorem C30_or : forall st s p name tok args, In name [$"or"; $"||"] -> form st p name tok args -> standard st s name -> Forall plain args ->
  forall r st', evals p s st (Val r) st' <-> exists b, r = Some (vbool b) /\ first_decides s args (noted st s tok) b st'.
Proof. exact or_value. Qed.
Print Assumptions C30_or.
Theorem C30_or_refuted : exists v st', runs false false $"(or #f #t)" [] fresh (Val (Some v)) st' /\ is_bool v false.
Proof. exact or_not_disjunction. Qed.
Print Assumptions C30_or_refuted.
Theorem C30_or_short_circuit_refuted : exists v st', runs false false $"(or #t (== 1 (print 1)))" [] fresh (Val (Some v)) st' /\ st_out st' = $"1".
Proof. exact or_not_short. Qed.
Print Assumptions C30_or_short_circuit_refuted.
Example C30_ex : form code_st (code_ 1 72) $"and" None [bool_ 72 true; bool_ 73 false; code_ 74 74] /\ standard code_st main_sid $"and" /\
  conjunction main_sid [bool_ 72 true; bool_ 73 false; code_ 74 74] code_st false code_st /\
  form code_st (code_ 1 73) $"or" None [bool_ 72 false; bool_ 73 true] /\ standard code_st main_sid $"or" /\
  first_decides main_sid [bool_ 72 false; bool_ 73 true] code_st false code_st.
Proof.
  split; [apply (form_by _ _ _ 71); vm_compute; reflexivity|].
  split; [apply std_main; vm_compute; repeat split; reflexivity|].
  split. { eapply cj_true; [apply eval_atom; discriminate|split; reflexivity|]. eapply cj_false; [apply eval_atom; discriminate|split; reflexivity]. }
  split; [apply (form_by _ _ _ 71); vm_compute; reflexivity|].
  split; [apply std_main; vm_compute; repeat split; reflexivity|].
  eapply fi_false; [apply eval_atom; discriminate|split; reflexivity].
Qed.

(** ** C41: return *)
Theorem C41_return_marks : forall st s sc i v rest, scope_at st s = Some sc ->
  builtin_call $"return" (P i (OVar v) :: rest) s st (Val (Some v)) (with_scopes (PositiveMap.add s (set_inret true sc) (st_scopes st)) st).
Proof. exact return_sets. Qed.
Print Assumptions C41_return_marks.
Theorem C41_block : forall st s p name tok args, In name [$"do"; $"begin"] -> form st p name tok args -> standard st s name -> Forall plain args -> forall r st',
  evals p s st (Val r) st' <-> in_sequence s args (Some vundef) (noted st s tok) r st'.
Proof. exact do_value. Qed.
Print Assumptions C41_block.
Theorem C41_caller_continues : forall f st s sc ds name modname fp body more args names r st', fn_code f = CClosure name modname (fp :: body :: more) ds ->
  scope_at st s = Some sc -> numbered st -> heap_numbered st -> scope_exists st (s_global sc) -> scope_exists st ds -> parameters st fp names ->
  calls f args s st (Val r) st' -> exists v, scope_at st' s = Some (set_next None (set_vars v sc)).
Proof. exact closure_keeps_caller. Qed.
Print Assumptions C41_caller_continues.
Theorem C41_global_leak_refuted : exists r1 r2 st1 st2, runs false false $"(do (return 5))" [] fresh (Val r1) st1 /\
  runs false false $"(do (print 1) (print 2))" [] st1 (Val r2) st2 /\ st_out st2 = $"1".
Proof. exact return_leak. Qed.
Print Assumptions C41_global_leak_refuted.
Example C41_ex : form code_st (code_ 1 79) $"do" None [code_ 72 77; code_ 73 77] /\ standard code_st main_sid $"do" /\
  Forall plain [code_ 72 77; code_ 73 77] /\ exists r st', evals (code_ 1 79) main_sid code_st (Val r) st'.
Proof.
  split; [apply (form_by _ _ _ 71); vm_compute; reflexivity|].
  split; [apply std_main; vm_compute; repeat split; reflexivity|]. split; [repeat (apply Forall_cons; [exact I|]); apply Forall_nil|].
  eexists. eexists. apply (evals_by 20); [vm_compute; reflexivity|discriminate].
Qed.
Example C41_function_ex : exists v st', runs false false $"(do (defn f (x) (do (return x) (print 1))) (print (f 7)) (print 2))" [] fresh (Val (Some v)) st' /\ st_out st' = $"72".
Proof. eexists. eexists. split; [apply (runs_by 60); [vm_compute; reflexivity|discriminate]|vm_compute; reflexivity]. Qed.

(** ** C50: evaluating a call *)
Theorem C50_special_form : forall st s p name tok args f o st', form st p name tok args -> means st s name f -> fn_sp f = true ->
  Forall plain args -> evals p s st o st' <-> calls f args s (noted st s tok) o st'.
Proof. exact special_dispatch. Qed.
Print Assumptions C50_special_form.
Theorem C50_call : forall st s p name tok args args0 args1 st1 f o st', form st p name tok args -> means st s name f -> fn_sp f = false ->
  Forall2 (looked_up st s) args args0 -> evaluated s args0 (noted st s tok) args1 st1 ->
  evals p s st o st' <-> calls f args1 s st1 o st'.
Proof. exact ordinary_dispatch. Qed.
Print Assumptions C50_call.
Theorem C50_argument_fails : forall st s p name tok args args0 f o st', form st p name tok args -> means st s name f -> fn_sp f = false ->
  Forall2 (looked_up st s) args args0 -> evaluation_fails s args0 (noted st s tok) o st' -> o <> NoFuel -> evals p s st o st'.
Proof. exact ordinary_fails. Qed.
Print Assumptions C50_argument_fails.
Example C50_ex : form code_st (code_ 1 78) $"+" None [sym_ 72 $"i"; int_ 73 1] /\ (exists f, builtin_fn $"+" = Some f /\ fn_sp f = false /\ means code_st main_sid $"+" f) /\
  exists q, Forall2 (looked_up code_st main_sid) [sym_ 72 $"i"; int_ 73 1] [q; int_ 73 1] /\ evaluated main_sid [q; int_ 73 1] code_st [q; int_ 73 1] code_st.
Proof.
  split; [apply (form_by _ _ _ 71); vm_compute; reflexivity|].
  split. { assert (S : standard code_st main_sid $"+") by (apply std_main; vm_compute; repeat split; reflexivity).
    destruct S as (f & B & M). exists f. split; [exact B|]. split; [|exact M]. vm_compute in B. injection B as <-. reflexivity. }
  assert (SE : scope_exists code_st main_sid) by (apply main_here; vm_compute; exact I).
  eexists. split; [apply Forall2_cons; [eapply lu_var; [exists 72%positive; eexists; repeat split|apply se_own; [exact SE|vm_compute; reflexivity]]|]|].
  - apply Forall2_cons; [apply lu_value; discriminate|apply Forall2_nil].
  - apply ev_value; [left; discriminate|]. apply ev_value; [left; discriminate|]. apply ev_nil.
Qed.

(** ** C51: atoms and symbols *)
Theorem C51_atom : forall i v s st, v_ty v <> TSym -> v_ty v <> TList -> evals (P i (OVar v)) s st (Val (Some v)) st.
Proof. exact eval_atom. Qed.
Print Assumptions C51_atom.
Theorem C51_symbol : forall p name s st j w, expr_sym p name -> sees st s name (Some (P j (OVar w))) ->
  exists st', evals p s st (Val (Some w)) st' /\ same_data st st'.
Proof. exact symbol_value. Qed.
Print Assumptions C51_symbol.
Theorem C51_unknown_symbol : forall i v name s st, is_sym v name -> sees st s name None ->
  exists st', evals (P i (OVar v)) s st (Val (Some v)) st' /\ same_data st st'.
Proof. exact symbol_itself. Qed.
Print Assumptions C51_unknown_symbol.
Example C51_ex : expr_sym (sym_ 1 $"i") $"i" /\ (exists i v, sees code_st main_sid $"i" (Some (P i (OVar v))) /\ is_int v 0) /\ sees code_st main_sid $"unbound" None.
Proof.
  assert (SE : scope_exists code_st main_sid) by (apply main_here; vm_compute; exact I).
  split; [exists 1%positive; eexists; repeat split|]. split; [eexists; eexists; split; [apply se_own; [exact SE|vm_compute; reflexivity]|split; reflexivity]|].
  destruct (main_scope code_st) as (_ & _ & SN); [vm_compute; repeat split; try discriminate; intuition discriminate|].
  apply SN; vm_compute; reflexivity.
Qed.
