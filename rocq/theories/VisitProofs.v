(** With the debugger attached every call is preceded by a visit. *)
Require Import String Ascii List ZArith Bool Lia.
Require Import PArith FMapPositive.
From Verif Require Import Base CppString Num Token Tokenizer Parser Value State Show ScopeOps Builtins Table Eval LispTop Debugger SpecRun SpecVal SpecList SpecForm SpecText SpecDebug SpecLex FuelProofs ClassifyProofs BuiltinProofs Wf RunProofs TextProofs StrProofs NumProofs ErrProofs ListProofs FormProofs DebugProofs.
Import ListNotations.

Lemma mono_devals : forall p s, monotone (fun n => r_eval (drun n) p s). Proof. intros p s n m L. apply lr_eval, le_drun, L. Qed.
Lemma mono_dcalls : forall f a s, monotone (fun n => r_call (drun n) f a s). Proof. intros f a s n m L. apply lr_call, le_drun, L. Qed.
Lemma mono_dvisit : forall h s, monotone (fun n => r_dbg (drun n) (EvVisit h s)). Proof. intros h s n m L. apply lr_dbg, le_drun, L. Qed.
Lemma dexpr_eval : forall n st p es s, expr_list st p es ->
  r_eval (drun (S n)) p s st = match es with [] => (Val (Some vnil), st) | h :: t => eval_list (drun n) h t s st end.
Proof.
  intros n st p es s H. change (r_eval (drun (S n)) p s) with (eval_ast (drun n) p s). unfold eval_ast. destruct H as [(i & l & -> & V)|(i & v & l & -> & T & L & V)].
  - unfold bind, reads, list_ref. cbn [deref obind]. unfold get_vec. unfold vec_at in V. rewrite V. destruct es; reflexivity.
  - unfold is_list, is_nil. rewrite (is_ty_of v _ _ T), T. tys. cbn [orb andb negb]. unfold bind, reads.
    rewrite (list_value_list _ _ l es); [|repeat split; assumption]. destruct es; reflexivity.
Qed.
Lemma dform_eval : forall n st s p h name tok args args0 f, form_at st p h name tok args -> means st s name f ->
  (if fn_sp f then args0 = args else Forall2 (looked_up st s) args args0) ->
  r_eval (drun (S n)) p s st =
  bind (eval_args (drun n) (fn_sp f) args0 s) (fun args1 => r_dbg (drun n) (EvVisit h s) ;; r_call (drun n) f args1 s) (noted st s tok).
Proof.
  intros n st s p h name tok args args0 f (j & v & EH & X & SY & TK) (sc & gs & i & w & H & HG & TR & NM & SE & FN) A. subst h.
  rewrite (dexpr_eval _ _ _ _ _ X). unfold eval_list. unfold bind at 1, global_of, bind at 1, reads at 1. rewrite (get_at _ _ _ H). unfold ret at 1.
  unfold bind at 1, reads at 1. rewrite (get_macro_none _ _ name); [|exact NM|apply ptr_str_sym; exact SY].
  unfold bind at 1, lift at 1. cbn [vref vref_obj]. unfold bind at 1. rewrite (noted_run _ _ _ _ H), TK.
  set (st1 := noted st s tok). assert (SE1 : sees st1 s name (Some (P i (OVar w)))) by (eapply like_sees; [apply like_noted|exact SE]).
  unfold bind at 1. rewrite (resolve_elem_sym _ _ _ _ (P j (OVar v)) (ex_intro _ j (ex_intro _ v (conj eq_refl SY))) SE1).
  unfold bind at 1. unfold head_function, bind at 1, lift at 1. cbn [vref vref_obj]. unfold try_catch, reads. rewrite (fn_value _ _ _ FN).
  assert (E : (if fn_sp f then ret args else resolve_elems args s) st1 = (Val args0, st1)).
  { destruct (fn_sp f); [subst; reflexivity|]. apply resolve_args. clear -A. induction A as [|a b ps qs L _ IH]; constructor; [clear IH|exact IH].
    assert (K := like_noted st s tok). destruct L; [eapply lu_var|eapply lu_unknown|eapply lu_value|eapply lu_list]; eauto; eapply like_sees; eauto. }
  unfold bind at 1. rewrite E. destruct (noted_tracing st s tok _ _ HG) as (gs1 & G1 & TR1). unfold bind at 1. fold st1 in G1. rewrite G1, TR1, TR. reflexivity.
Qed.
Lemma deval_args_done : forall s ps st qs st', debug_evaluated s ps st qs st' -> exists n, forall m, (n <= m)%nat -> eval_args (drun m) false ps s st = (Val qs, st').
Proof.
  intros s ps st qs st' H. induction H as [st|i v ps st qs st' S H (n & IH)|i l ps st v st1 st2 q qs st3 E S (-> & ->) H (n & IH)].
  - exists 0%nat. reflexivity.
  - exists n. intros m L. cbn [eval_args]. unfold bind, lift. cbn [deref obj_is_list andb]. unfold ret at 1. cbn [deref]. rewrite (not_spliced _ S), IH by exact L. reflexivity.
  - destruct E as (k & E & N). exists (Nat.max n k). intros m L. cbn [eval_args]. unfold bind at 1, lift at 1. cbn [deref obj_is_list negb andb].
    unfold bind at 1. unfold bind at 1. rewrite (ends_at _ _ _ _ _ _ m (mono_devals _ _) E N) by lia.
    unfold bind at 1, some_var, ret at 1. unfold new_var_ptr, new_ptr. unfold bind at 1, lift at 1. cbn [deref]. rewrite (not_spliced _ S).
    unfold bind. rewrite IH by lia. reflexivity.
Qed.
Lemma visit_first : forall p h f args s st st1 k, (forall n, (k <= n)%nat -> r_eval (drun (S n)) p s st = (r_dbg (drun n) (EvVisit h s) ;; r_call (drun n) f args s) st1) ->
  forall o st', debug_evals p s st o st' <-> visited_then_called h f args s st1 o st'.
Proof.
  intros p h f args s st st1 k E o st'. split.
  - intros (n & H & N). assert (X : r_eval (drun (S (Nat.max k n))) p s st = (o, st')) by (apply (ends_at _ _ _ _ _ n _ (mono_devals p s) H N); lia).
    rewrite E in X by lia. unfold bind in X. destruct (r_dbg (drun (Nat.max k n)) (EvVisit h s) st1) as [o1 st2] eqn:V.
    assert (W : o1 <> NoFuel -> visit h s st1 o1 st2) by (intro; exists (Nat.max k n); split; assumption).
    destruct o1 as [[]|e|u|u|].
    + left. exists st2. split; [apply W; discriminate|]. exists (Nat.max k n). split; assumption.
    + right. injection X as <- <-. exists (Throw e). split; [apply W; discriminate|reflexivity].
    + right. injection X as <- <-. exists (Undef u). split; [apply W; discriminate|reflexivity].
    + right. injection X as <- <-. exists (Unmod u). split; [apply W; discriminate|reflexivity].
    + injection X as <- _. congruence.
  - intros [(st2 & (n & V & NV) & (m & H & N))|(o1 & (n & V & NV) & HO)].
    + exists (S (Nat.max k (Nat.max n m))). split; [|exact N]. rewrite E by lia. unfold bind. rewrite (ends_at _ _ _ _ _ n _ (mono_dvisit h s) V NV) by lia.
      apply (ends_at _ _ _ _ _ m _ (mono_dcalls f args s) H N). lia.
    + exists (S (Nat.max k n)). rewrite E by lia. unfold bind. rewrite (ends_at _ _ _ _ _ n _ (mono_dvisit h s) V NV) by lia.
      destruct o1 as [[]|e|u|u|], o; try contradiction; subst; split; try reflexivity; discriminate.
Qed.
Lemma special_visited : forall st s p h name tok args f o st', form_at st p h name tok args -> means st s name f -> fn_sp f = true -> Forall plain args ->
  debug_evals p s st o st' <-> visited_then_called h f args s (noted st s tok) o st'.
Proof.
  intros st s p h name tok args f o st' F M SP PL. apply (visit_first _ _ _ _ _ _ _ 0). intros n _.
  rewrite (dform_eval n _ _ _ _ _ _ _ args _ F M) by (rewrite SP; reflexivity). rewrite SP. unfold bind at 1. rewrite eval_args_special by exact PL. reflexivity.
Qed.
Lemma ordinary_visited : forall st s p h name tok args args0 args1 st1 f o st', form_at st p h name tok args -> means st s name f -> fn_sp f = false ->
  Forall2 (looked_up st s) args args0 -> debug_evaluated s args0 (noted st s tok) args1 st1 ->
  debug_evals p s st o st' <-> visited_then_called h f args1 s st1 o st'.
Proof.
  intros st s p h name tok args args0 args1 st1 f o st' F M SP LU EV. destruct (deval_args_done _ _ _ _ _ EV) as (k & K). apply (visit_first _ _ _ _ _ _ _ k). intros n L.
  rewrite (dform_eval n _ _ _ _ _ _ _ args0 _ F M) by (rewrite SP; exact LU). rewrite SP. unfold bind at 1. rewrite K by exact L. reflexivity.
Qed.
