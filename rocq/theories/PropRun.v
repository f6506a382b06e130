(** Properties C06 (second part), C26, C32 - C36, C46, C47: whole runs of the interpreter. *)
Require Import String Ascii List ZArith Bool Lia.
Require Import PArith FMapPositive.
From Verif Require Import Base CppString Num Token Value State ScopeOps Builtins Eval LispTop SpecLex SpecRun
  RunProofs ErrProofs.
Import ListNotations.

(** ** C06: a literal out of range escapes the safe entry point *)
Theorem C06_out_of_range_escapes : forall vb tr oe md st s ks w z ch rest, reachable st ->
  src_ok s -> src_closed s -> src_kinds s ks ->
  int_text w z -> ~ (- 2 ^ 31 <= z < 2 ^ 31)%Z -> (is_space ch = true \/ ch = c_lpar \/ ch = c_rpar) ->
  exists st', saves vb tr oe (src_text s ++ w ++ ch :: rest) md st (Throw EOutOfRange) st'.
Proof. exact literal_escapes. Qed.
Print Assumptions C06_out_of_range_escapes.
Example C06_out_of_range_escapes_ex :
  let s := [(LxOpen, []); (LxWord $"print", $" ")] in
  src_text s ++ $"-2147483649" ++ c_rpar :: $" ; rest" = $"(print -2147483649) ; rest" /\
  src_ok s /\ src_closed s /\ int_text $"-2147483649" (-2147483649) /\ reachable fresh.
Proof.
  split; [reflexivity|]. split; [|split; [left; discriminate|split; [|apply reach_init]]].
  - cbn [src_ok lx_ok]. repeat match goal with |- _ /\ _ => split end; auto; try reflexivity; try discriminate.
    split; [discriminate|reflexivity].
  - change (-2147483649)%Z with (- dec_value 0 $"2147483649")%Z. apply it_minus; [discriminate|reflexivity].
Qed.

(** ** C26: scope chains end *)
Theorem C26_chains_end : forall st s sc, reachable st -> scope_at st s = Some sc ->
  chain_ends s_closure st s /\ chain_ends s_prev st s.
Proof. exact chains_end. Qed.
Print Assumptions C26_chains_end.
Theorem C26_lookup : forall st s sc name i, reachable st -> scope_at st s = Some sc ->
  let sym := P i (OVar (mkv TSym (OString name))) in
  healthy (fst (resolve s sym st)) /\ fst (resolve s sym st) <> NoFuel.
Proof. exact lookup_healthy. Qed.
Print Assumptions C26_lookup.
Theorem C26_assign : forall st s sc name p, reachable st -> scope_at st s = Some sc ->
  healthy (fst (set_in_scopes s name p st)).
Proof. exact assign_healthy_any. Qed.
Print Assumptions C26_assign.
Theorem C26_depth : forall st s sc, reachable st -> scope_at st s = Some sc ->
  exists scs, call_stack s st = Val scs.
Proof. exact depth_total. Qed.
Print Assumptions C26_depth.
Theorem C26_no_endless_chain : forall st n tr oe code modname, reachable st ->
  healthy (fst (eval_script n tr oe code modname st)).
Proof. exact run_healthy. Qed.
Print Assumptions C26_no_endless_chain.
(** A reachable state in which a closure's scope has a closure chain of length two. *)
Example C26_ex :
  let st := snd (eval_script 60 false false $"(def mk (lambda (x) (lambda (y) (+ x y)))) (def g (mk 1)) (g 2)" [] fresh) in
  reachable st /\ option_map s_closure (scope_at st 5%positive) = Some (Some 4%positive) /\
  option_map s_closure (scope_at st 4%positive) = Some (Some main_sid) /\
  fst (eval_script 60 false false $"(g 2)" [] st) = Val (Some (mkv TInt (OInt 3))).
Proof. split; [apply reach_eval, reach_init|]. split; [|split]; vm_compute; reflexivity. Qed.

(** ** C32: determinism *)
Theorem C32_eval : forall tr oe c md st o1 st1 o2 st2,
  runs tr oe c md st o1 st1 -> runs tr oe c md st o2 st2 -> o1 = o2 /\ st1 = st2.
Proof. exact runs_det. Qed.
Print Assumptions C32_eval.
Theorem C32_save : forall vb tr oe c md st o1 st1 o2 st2,
  saves vb tr oe c md st o1 st1 -> saves vb tr oe c md st o2 st2 -> o1 = o2 /\ st1 = st2.
Proof. exact saves_det. Qed.
Print Assumptions C32_save.
Theorem C32_expression : forall p s st o1 st1 o2 st2, evals p s st o1 st1 -> evals p s st o2 st2 -> o1 = o2 /\ st1 = st2.
Proof. exact evals_det. Qed.
Print Assumptions C32_expression.
Theorem C32_budget : forall tr oe c md st o st' n m, eval_script n tr oe c md st = (o, st') -> o <> NoFuel -> (n <= m)%nat ->
  eval_script m tr oe c md st = (o, st').
Proof. exact budget_irrelevant. Qed.
Print Assumptions C32_budget.
Example C32_ex : exists st', runs false false $"(print (+ 1 2))" [] fresh (Val (Some (mkv TString (OString $"3")))) st' /\ st_out st' = $"3".
Proof. eexists. split; [apply (runs_by 30); [vm_compute; reflexivity|discriminate]|vm_compute; reflexivity]. Qed.

(** ** C33: output only grows *)
Theorem C33_eval : forall tr oe c md st o st', runs tr oe c md st o st' -> io_kept st st'.
Proof. exact io_runs. Qed.
Print Assumptions C33_eval.
Theorem C33_save : forall vb tr oe c md st o st', saves vb tr oe c md st o st' -> io_kept st st'.
Proof. exact io_saves. Qed.
Print Assumptions C33_save.
Theorem C33_expression : forall p s st o st', evals p s st o st' -> io_kept st st'.
Proof. exact io_evals. Qed.
Print Assumptions C33_expression.
Theorem C33_call : forall f a s st o st', calls f a s st o st' -> io_kept st st'.
Proof. exact io_calls. Qed.
Print Assumptions C33_call.
Theorem C33_cut_off : forall n tr oe c md st, io_kept st (snd (eval_script n tr oe c md st)).
Proof. exact io_script. Qed.
Print Assumptions C33_cut_off.
(** A run that writes, then fails. *)
Example C33_ex : exists m i st', runs false false $"(print 1) (undefinedfn)" [] fresh (Throw (ELisp m i)) st' /\ st_out st' = $"1".
Proof. eexists. eexists. eexists. split; [apply (runs_by 30); [vm_compute; reflexivity|discriminate]|vm_compute; reflexivity]. Qed.

(** ** C34: the scopes of the callers *)
Theorem C34_expression : forall p s st o st', numbered st -> evals p s st o st' -> forall t sc, scope_at st t = Some sc ->
  exists sc', scope_at st' t = Some sc' /\ s_name sc' = s_name sc /\ s_global sc' = s_global sc /\
    s_closure sc' = s_closure sc /\ s_prev sc' = s_prev sc /\
    (t <> s -> exists v, sc' = set_vars v sc) /\
    (is_val o = true -> s_needlv sc' = s_needlv sc /\ (s_next sc = None -> s_next sc' = None)).
Proof. exact frame_evals. Qed.
Print Assumptions C34_expression.
Theorem C34_call : forall f a s st o st', numbered st -> calls f a s st o st' -> forall t sc, scope_at st t = Some sc ->
  exists sc', scope_at st' t = Some sc' /\ s_name sc' = s_name sc /\ s_global sc' = s_global sc /\
    s_closure sc' = s_closure sc /\ s_prev sc' = s_prev sc /\
    (t <> s -> exists v, sc' = set_vars v sc) /\
    (is_val o = true -> s_needlv sc' = s_needlv sc /\ (s_next sc = None -> s_next sc' = None)).
Proof. exact frame_calls. Qed.
Print Assumptions C34_call.
Theorem C34_reachable_numbered : forall st, reachable st -> numbered st.
Proof. exact reachable_numbered. Qed.
Print Assumptions C34_reachable_numbered.
Example C34_ex : numbered fresh /\ scope_at fresh main_sid <> None.
Proof. split; [apply C34_reachable_numbered, reach_init|discriminate]. Qed.
(** After an error the caller keeps a link to the abandoned callee. *)
Theorem C34_dangling_link_refuted : exists c st' m callee, runs false false c [] fresh (Throw (ELispBase m)) st' /\
  option_map s_next (scope_at fresh main_sid) = Some None /\ option_map s_next (scope_at st' main_sid) = Some (Some callee).
Proof. exact dangling_link. Qed.
Print Assumptions C34_dangling_link_refuted.

(** ** C35: the safe entry point *)
Theorem C35_value : forall vb tr oe c md st r st', runs tr oe c md st (Val r) st' -> saves vb tr oe c md st (Val r) st'.
Proof. exact save_val. Qed.
Print Assumptions C35_value.
Theorem C35_error : forall vb tr oe c md st m st', runs tr oe c md st (Throw (ELispBase m)) st' ->
  saves vb tr oe c md st (Val (Some (mkv TError (OString m)))) st'.
Proof. exact save_base. Qed.
Print Assumptions C35_error.
Theorem C35_error_with_position : forall vb tr oe c md st m i st', runs tr oe c md st (Throw (ELisp m i)) st' ->
  fine_text m -> fine_text (ei_module i) -> fine_text (ei_stack i) ->
  saves vb tr oe c md st (Val (Some (mkv TError (OString m)))) (with_out (st_out st' ++ report_text m i vb) st').
Proof. exact save_lisp. Qed.
Print Assumptions C35_error_with_position.
Theorem C35_others_escape : forall vb tr oe c md st o st', runs tr oe c md st o st' ->
  (forall r, o <> Val r) -> (forall m i, o <> Throw (ELisp m i)) -> (forall m, o <> Throw (ELispBase m)) ->
  saves vb tr oe c md st o st'.
Proof. exact save_other. Qed.
Print Assumptions C35_others_escape.
Example C35_ex : exists m i st', runs false false $"(undefinedfn)" $"m" fresh (Throw (ELisp m i)) st' /\
  fine_text m /\ fine_text (ei_module i) /\ fine_text (ei_stack i).
Proof.
  eexists. eexists. eexists. split; [apply (runs_by 30); [vm_compute; reflexivity|discriminate]|].
  unfold fine_text. repeat split; try discriminate; cbn; intuition discriminate.
Qed.
(** A Lisp error escapes if a text inserted into the report contains a placeholder. *)
Theorem C35_never_escapes_refuted : exists c md m st', saves false false false c md fresh (Throw (ELispBase m)) st'.
Proof. exact escape_by_module. Qed.
Print Assumptions C35_never_escapes_refuted.

(** ** C36: the flag that asks for a place *)
Theorem C36_flag_kept : forall p s st r st' sc, numbered st -> evals p s st (Val r) st' -> scope_at st s = Some sc ->
  exists sc', scope_at st' s = Some sc' /\ s_needlv sc' = s_needlv sc.
Proof.
  exact (fun p s st r st' sc N H E => match frame_evals p s st (Val r) st' N H s sc E with
    | ex_intro _ sc' (conj E' (conj _ (conj _ (conj _ (conj _ (conj _ K)))))) => ex_intro _ sc' (conj E' (proj1 (K eq_refl))) end).
Qed.
Print Assumptions C36_flag_kept.
Theorem C36_usual_result : exists st2 v, runs false false $"(first (list 1 2))" [] fresh (Val (Some v)) st2 /\ v_ty v = TInt.
Proof. exact flag_usual. Qed.
Print Assumptions C36_usual_result.
Theorem C36_after_error_refuted : exists st1 m i st2 v,
  runs false false $"(setf (first (undefinedfn)) 1)" [] fresh (Throw (ELisp m i)) st1 /\
  runs false false $"(first (list 1 2))" [] st1 (Val (Some v)) st2 /\ v_ty v = TLValue.
Proof. exact flag_left_set. Qed.
Print Assumptions C36_after_error_refuted.

(** ** C46: errors leave functions without their position *)
Theorem C46_no_position : forall name md i l fargs ds sig doc bi sp ex fm args s st o st',
  calls (MkFn (CClosure name md (P i (OList l) :: fargs) ds) sig doc bi sp ex fm) args s st o st' -> not_positioned o.
Proof. exact calls_closure_not_positioned. Qed.
Print Assumptions C46_no_position.
Theorem C46_no_report : exists m st1 st2,
  runs false false $"(undefinedfn)" [] fresh (Throw (ELisp m (ErrInfo 1 1 12 []
    ($"       1 name=<main>                              lineno=1    module=" ++ [c_nl])))) st1 /\
  saves false false false $"(defn f () (undefinedfn)) (f)" [] fresh (Val (Some (mkv TError (OString m)))) st2 /\ st_out st2 = [].
Proof. exact position_lost. Qed.
Print Assumptions C46_no_report.

(** ** C47: values are of the kind their type says *)
Theorem C47_result : forall st n tr oe code modname v st', reachable st ->
  eval_script n tr oe code modname st = (Val (Some v), st') -> tagged st' v.
Proof. exact run_tagged. Qed.
Print Assumptions C47_result.
Theorem C47_stored : forall st v, reachable st -> stored st v -> tagged st v.
Proof. exact stored_tagged. Qed.
Print Assumptions C47_stored.
Example C47_ex : exists v, stored (snd (eval_script 30 false false $"(def x (list 1 2))" [] fresh)) v /\ v_ty v = TInt.
Proof.
  eexists. split; [right; left; exists 1%positive; eexists; eexists; split; [vm_compute; reflexivity|right; left; reflexivity]|reflexivity].
Qed.
