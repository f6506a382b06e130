(** Arithmetic expressions and counting loops. *)
Require Import String Ascii List ZArith Bool Lia.
Require Import PArith FMapPositive.
From Verif Require Import Base CppString Num Token Value State Show ScopeOps Builtins Table Eval LispTop SpecRun SpecVal SpecNum SpecList SpecText SpecForm SpecCalc
  BuiltinProofs Wf RunProofs NumProofs ErrProofs ListProofs FormProofs.
Import ListNotations.

(** ** Changes *)
Lemma kept_refl : forall a, kept_scope a a.
Proof. intro a. repeat split. Qed.
Lemma kept_trans : forall a b c, kept_scope a b -> kept_scope b c -> kept_scope a c.
Proof. unfold kept_scope. intros a b c H K. decompose [and] H. decompose [and] K. repeat split; congruence. Qed.
Lemma changes_refl : forall V st, changes_only V st st.
Proof.
  intros V st. unfold changes_only. repeat match goal with |- _ /\ _ => split end; try reflexivity; try tauto.
  intros u a b A B. assert (a = b) by congruence. subst. split; [apply kept_refl|reflexivity].
Qed.
Lemma changes_trans : forall V st st1 st2, changes_only V st st1 -> changes_only V st1 st2 -> changes_only V st st2.
Proof.
  intros V st st1 st2 (A1 & A2 & A3 & A4 & A5 & A6 & A7 & A8 & A9) (B1 & B2 & B3 & B4 & B5 & B6 & B7 & B8 & B9).
  unfold changes_only. repeat match goal with |- _ /\ _ => split end; try congruence.
  - intros u n N. rewrite B1, A1 by exact N. reflexivity.
  - intro u. rewrite B2. apply A2.
  - intros u a c H K. destruct (proj2 (A2 u) (ex_intro _ _ H)) as (b & M).
    destruct (A3 _ _ _ H M) as (P1 & P2). destruct (B3 _ _ _ M K) as (Q1 & Q2). split; [eapply kept_trans; eassumption|].
    intro N. rewrite Q2, P2 by exact N. reflexivity.
Qed.
Lemma changes_weaken : forall (V W : sid -> str -> Prop) st st', (forall u n, V u n -> W u n) -> changes_only V st st' -> changes_only W st st'.
Proof.
  intros V W st st' I (A1 & A2 & A3 & A4). unfold changes_only. split; [|split; [exact A2|split; [|exact A4]]].
  - intros u n N. apply A1. intro X. apply N, I, X.
  - intros u a b H K. destruct (A3 _ _ _ H K) as (P1 & P2). split; [exact P1|]. intro N. apply P2. intros n X. apply (N n), I, X.
Qed.
Lemma changes_noted : forall V st s tok, changes_only V st (noted st s tok).
Proof.
  intros V st s tok. unfold changes_only. split; [intros; apply noted_var|]. split; [apply noted_exists|]. split.
  - intros u a b H K. rewrite noted_scope, H in K. destruct tok as [t|]; [|injection K as <-; split; [apply kept_refl|reflexivity]].
    destruct (Pos.eqb u s); cbn in K; injection K as <-; (split; [destruct a; repeat split|reflexivity]).
  - unfold noted. destruct tok; [destruct (scope_at st s)|]; repeat split; reflexivity.
Qed.
Lemma changes_nid : forall V st n, changes_only V st (with_nid n st).
Proof.
  intros V st n. unfold changes_only. repeat match goal with |- _ /\ _ => split end; try reflexivity; try (intros; reflexivity).
  - intros u a b A B. assert (a = b) by (unfold scope_at in *; cbn in B; congruence). subst. split; [apply kept_refl|reflexivity].
Qed.
Lemma changes_becomes : forall st st' t x v, var_becomes st st' t x v -> changes_only (one_var t x) st st'.
Proof.
  intros st st' t x v (_ & O & U & X & SC & R). unfold changes_only. split; [|split; [exact X|split; [|exact R]]].
  - intros u n N. apply O. intro E. apply N. unfold one_var. split; congruence.
  - intros u a b A B. split.
    + destruct (SC _ _ _ A B) as (H1 & H2 & H3 & H4 & H5 & H6 & H7 & H8 & H9 & H10 & H11 & H12 & H13 & H14). repeat split; assumption.
    + intro N. destruct (Pos.eq_dec u t) as [->|Q]; [exfalso; apply (N x); split; reflexivity|]. rewrite (U _ Q) in B. congruence.
Qed.
Lemma changes_vec : forall V st st' l, changes_only V st st' -> vec_at st' l = vec_at st l.
Proof. intros V st st' l (_ & _ & _ & H & _). unfold vec_at. rewrite H. reflexivity. Qed.
Lemma changes_scope : forall V st st' s sc, changes_only V st st' -> scope_at st s = Some sc ->
  exists sc', scope_at st' s = Some sc' /\ s_global sc' = s_global sc /\ s_closure sc' = s_closure sc /\ s_tracing sc' = s_tracing sc /\
    s_inret sc' = s_inret sc /\ ((forall n, ~ V s n) -> s_vars sc' = s_vars sc).
Proof.
  intros V st st' s sc (_ & E & F & _) H. destruct (proj2 (E s) (ex_intro _ _ H)) as (sc' & H'). exists sc'. destruct (F _ _ _ H H') as (K & W).
  unfold kept_scope in K. decompose [and] K. auto 10.
Qed.
Lemma changes_exists : forall V st st' s, changes_only V st st' -> scope_exists st s -> scope_exists st' s.
Proof. intros V st st' s (_ & E & _) H. apply E, H. Qed.
Lemma changes_var : forall (V : sid -> str -> Prop) st st' s n, changes_only V st st' -> ~ V s n -> var_at st' s n = var_at st s n.
Proof. intros V st st' s n (H & _) N. apply H, N. Qed.

(** ** What stays visible *)
Lemma enclosing_changes : forall (V : sid -> str -> Prop) st st' name s r, changes_only V st st' -> (forall u, ~ V u name) -> enclosing st name s r -> enclosing st' name s r.
Proof.
  intros V st st' name s r CH N H. induction H as [s sc H C|s sc c p H C L X W|s sc c r H C L X W R IH];
    destruct (changes_scope _ _ _ _ _ CH H) as (sc' & H' & G & CL & _).
  - eapply en_none; [exact H'|congruence].
  - eapply en_here; [exact H'|rewrite CL; exact C|exact L|eapply changes_exists; eassumption|]. rewrite (changes_var V st); auto.
  - eapply en_up; [exact H'|rewrite CL; exact C|exact L|eapply changes_exists; eassumption| |exact IH]. rewrite (changes_var V st); auto.
Qed.
Lemma modules_changes : forall (V : sid -> str -> Prop) st st' name ms r, changes_only V st st' -> (forall u, ~ V u name) -> in_modules st name ms r -> in_modules st' name ms r.
Proof.
  intros V st st' name ms r CH N H. induction H; econstructor; eauto using changes_exists; rewrite (changes_var V st); auto.
Qed.
(** The variables in [V] do not include the name nor the interpreter's own bookkeeping. *)
Definition apart (V : sid -> str -> Prop) (st : state) (s : sid) (name : str) : Prop :=
  (forall u, ~ V u name) /\
  forall sc, scope_at st s = Some sc -> ~ V (s_global sc) $"###modules###" /\ ~ V (s_global sc) $"###macros###" /\
    forall i ms, var_at st (s_global sc) $"###modules###" = Some (P i (OScope ms)) -> forall n, ~ V ms n.
Lemma sees_changes : forall V st st' s name r, changes_only V st st' -> apart V st s name -> sees st s name r -> sees st' s name r.
Proof.
  intros V st st' s name r CH (N & B) H. destruct H as [q X W|sc q H W X G|sc c q H W X G C|sc i ms msc r H W X G C M MS I].
  - apply se_own; [eapply changes_exists; eassumption|]. rewrite (changes_var V st); auto.
  - destruct (changes_scope _ _ _ _ _ CH H) as (sc' & H' & Q & _). rewrite <- Q in *.
    eapply se_global; [exact H'|rewrite (changes_var V st); auto|eapply changes_exists; eassumption|rewrite (changes_var V st); auto].
  - destruct (changes_scope _ _ _ _ _ CH H) as (sc' & H' & Q & _). rewrite <- Q in *.
    eapply se_enclosing; [exact H'|rewrite (changes_var V st); auto|eapply changes_exists; eassumption|rewrite (changes_var V st); auto|eapply enclosing_changes; eassumption].
  - destruct (B _ H) as (B1 & B2 & B3). specialize (B3 _ _ M). destruct (changes_scope _ _ _ _ _ CH MS) as (msc' & MS' & _ & _ & _ & _ & QV). specialize (QV B3).
    destruct (changes_scope _ _ _ _ _ CH H) as (sc' & H' & Q & _). rewrite <- Q in *.
    eapply se_module; [exact H'|rewrite (changes_var V st); auto|eapply changes_exists; eassumption|rewrite (changes_var V st); auto|eapply enclosing_changes; eassumption| |exact MS'|].
    + rewrite (changes_var V st); [exact M|exact CH|exact B1].
    + rewrite QV. eapply modules_changes; eassumption.
Qed.
Lemma apart_none : forall st s name, apart no_var st s name.
Proof. intros st s name. split; [intros u []|]. intros sc H. unfold no_var. tauto. Qed.
Lemma means_changes : forall V st st' s name f, changes_only V st st' -> apart V st s name -> means st s name f -> means st' s name f.
Proof.
  intros V st st' s name f CH AP (sc & gs & i & v & H & HG & T & (XM & NM) & SE & FN).
  destruct (changes_scope _ _ _ _ _ CH H) as (sc' & H' & Q & _). destruct (changes_scope _ _ _ _ _ CH HG) as (gs' & HG' & _ & _ & TR & _).
  exists sc', gs', i, v. rewrite Q. repeat split; try assumption; try congruence.
  - eapply changes_exists; eassumption.
  - destruct AP as (N & B). destruct (B _ H) as (_ & B2 & _). destruct NM as [NM|(j & ms & M1 & M2 & M3)]; [left; rewrite (changes_var V st); auto|].
    right. exists j, ms. split; [rewrite (changes_var V st); auto|]. split; [eapply changes_exists; eassumption|]. rewrite (changes_var V st); auto.
  - eapply sees_changes; eassumption.
  - apply FN. - apply FN.
Qed.
Lemma standard_changes : forall V st st' s name, changes_only V st st' -> apart V st s name -> standard st s name -> standard st' s name.
Proof. intros V st st' s name CH AP (f & B & M). exists f. split; [exact B|]. eapply means_changes; eassumption. Qed.

(** ** Arithmetic *)
Scheme denotes_mut := Minimality for denotes Sort Prop with denote_all_mut := Minimality for denote_all Sort Prop.
Combined Scheme denotes_both from denotes_mut, denote_all_mut.

Lemma denotes_calm : forall st s, (forall p z, denotes st s p z -> forall st', changes_only no_var st st' -> denotes st' s p z) /\
  (forall ps zs, denote_all st s ps zs -> forall st', changes_only no_var st st' -> denote_all st' s ps zs).
Proof.
  intros st s. apply denotes_both.
  - intros. apply dn_number. assumption.
  - intros. eapply dn_variable; eauto. eapply sees_changes; eauto using apart_none.
  - intros. eapply dn_operation; eauto. rewrite (changes_vec _ _ _ _ H6). eassumption.
  - intros. eapply dn_negation; eauto. rewrite (changes_vec _ _ _ _ H4). eassumption.
  - intros. eapply dn_single; eauto. rewrite (changes_vec _ _ _ _ H4). eassumption.
  - intros. apply da_nil.
  - intros. apply da_cons; auto.
Qed.
Lemma operators_calm : forall V st st' s, changes_only V st st' -> (forall name, In name [$"+"; $"-"; $"*"] -> apart V st s name) -> usual_operators st s -> usual_operators st' s.
Proof. intros V st st' s CH AP (A & B & C). repeat split; (eapply standard_changes; [exact CH|apply AP; cbn; tauto|assumption]). Qed.

(** The arguments looked up, and then evaluated. *)
Definition computed (st : state) (s : sid) (p : ptr) (z : Z) : Prop :=
  usual_operators st s -> exists v st', evals p s st (Val (Some v)) st' /\ is_int v z /\ changes_only no_var st st'.
Lemma form_at : forall st i l j h name args, vec_at st l = Some (P j (OVar h) :: args) -> is_sym h name -> form st (P i (OList l)) name (v_tok h) args.
Proof. intros st i l j h name args E S. exists j, h. split; [left; exists i, l; auto|auto]. Qed.
Lemma int_settled : forall v z, is_int v z -> settled v.
Proof. intros v z (T & _). right. rewrite T. split; discriminate. Qed.
Lemma looked_up_changes : forall V st st' s p q, changes_only V st st' -> (forall name, expr_sym p name -> apart V st s name) -> looked_up st s p q -> looked_up st' s p q.
Proof.
  intros V st st' s p q CH AP H. destruct H as [p name q SY SE|p name SY SE|i v N|i l].
  - eapply lu_var; [exact SY|]. eapply sees_changes; eauto.
  - eapply lu_unknown; [exact SY|]. eapply sees_changes; eauto.
  - apply lu_value, N. - apply lu_list.
Qed.
Definition value_or_list (p q : ptr) (z : Z) : Prop := (exists i v, q = P i (OVar v) /\ is_int v z) \/ (exists i l, q = P i (OList l) /\ p = q).
Lemma fn_sp_ops : forall name, In name [$"+"; $"-"; $"*"] -> option_map fn_sp (builtin_fn name) = Some false.
Proof. intros name [<-|[<-|[<-|[]]]]; vm_compute; reflexivity. Qed.
Lemma usual_at : forall st s name, usual_operators st s -> In name [$"+"; $"-"; $"*"] -> standard st s name.
Proof. intros st s name (A & B & C) [<-|[<-|[<-|[]]]]; assumption. Qed.
Lemma operation_in : forall name f, operation name f -> In name [$"+"; $"-"; $"*"].
Proof. intros name f [(-> & _)|[(-> & _)|(-> & _)]]; cbn; tauto. Qed.
Lemma calm_operators : forall st st' s, changes_only no_var st st' -> usual_operators st s -> usual_operators st' s.
Proof. intros st st' s CH U. eapply operators_calm; [exact CH| |exact U]. intros. apply apart_none. Qed.
Lemma looked_up_all_calm : forall st st' s ps qs, changes_only no_var st st' -> Forall2 (looked_up st s) ps qs -> Forall2 (looked_up st' s) ps qs.
Proof. intros st st' s ps qs CH H. induction H; constructor; auto. eapply looked_up_changes; eauto. intros. apply apart_none. Qed.

(** One call: its arguments already handled. *)
Lemma op_step : forall st s st0 i l j h name args qs, vec_at st l = Some (P j (OVar h) :: args) -> is_sym h name -> In name [$"+"; $"-"; $"*"] ->
  changes_only no_var st st0 -> usual_operators st0 s -> Forall2 (looked_up st s) args qs ->
  forall rs st1, evaluated s qs (noted st0 s (v_tok h)) rs st1 -> forall o st', builtin_call name rs s st1 o st' -> evals (P i (OList l)) s st0 o st'.
Proof.
  intros st s st0 i l j h name args qs E SY IN CH U LU rs st1 EV o st' B.
  assert (F : form st0 (P i (OList l)) name (v_tok h) args) by (eapply form_at; [rewrite (changes_vec _ _ _ _ CH); exact E|exact SY]).
  apply (ordinary_builtin st0 s (P i (OList l)) name (v_tok h) args qs rs st1 o st' F (usual_at _ _ _ U IN) (fn_sp_ops _ IN)); try assumption.
  eapply looked_up_all_calm; eassumption.
Qed.
Lemma calc_both : forall st s,
  (forall p z, denotes st s p z -> (exists q, looked_up st s p q /\ value_or_list p q z) /\
     forall st0, changes_only no_var st st0 -> usual_operators st0 s ->
       exists v st', evals p s st0 (Val (Some v)) st' /\ is_int v z /\ changes_only no_var st0 st') /\
  (forall ps zs, denote_all st s ps zs -> exists qs, Forall2 (looked_up st s) ps qs /\
     forall st0, changes_only no_var st st0 -> usual_operators st0 s ->
       exists rs st', evaluated s qs st0 rs st' /\ int_args rs zs /\ changes_only no_var st0 st').
Proof.
  intros st s. apply denotes_both.
  - intros i v z I. split.
    + exists (P i (OVar v)). split; [apply lu_value; destruct I as [-> _]; discriminate|]. left. exists i, v. auto.
    + intros st0 _ _. exists v, st0. split; [apply eval_atom; destruct I as [-> _]; discriminate|]. split; [exact I|apply changes_refl].
  - intros p x i v z SY SE I. split.
    + exists (P i (OVar v)). split; [eapply lu_var; eassumption|]. left. exists i, v. auto.
    + intros st0 CH _. destruct SY as (k & w & -> & SY). assert (SE0 : sees st0 s x (Some (P i (OVar v)))) by (eapply sees_changes; eauto using apart_none).
      exists v, (with_nid (Pos.succ (st_nid st0)) st0). split; [exact (eval_symbol _ _ _ _ _ _ SY SE0)|]. split; [exact I|apply changes_nid].
  - intros i l j h name f args z zs E SY OP DA (qs & LU & IH) NE AF. split; [exists (P i (OList l)); split; [apply lu_list|right; exists i, l; auto]|].
    intros st0 CH U. assert (CN := changes_noted no_var st0 s (v_tok h)).
    destruct (IH (noted st0 s (v_tok h))) as (rs & st1 & EV & IA & C1); [eapply changes_trans; eassumption|eapply calm_operators; eassumption|].
    destruct (operation_exact name f rs z zs s st1 OP IA NE AF) as (r & B & R). exists r, st1.
    split; [|split; [exact R|eapply changes_trans; eassumption]].
    eapply op_step; try eassumption. eapply operation_in, OP.
  - intros i l j h a z E SY DA ((q & LU & Q) & IH) F. split; [exists (P i (OList l)); split; [apply lu_list|right; exists i, l; auto]|].
    intros st0 CH U. assert (CN := changes_noted no_var st0 s (v_tok h)).
    assert (EV : exists rs st1, evaluated s [q] (noted st0 s (v_tok h)) rs st1 /\ int_args rs [z] /\ changes_only no_var (noted st0 s (v_tok h)) st1).
    { destruct Q as [(k & v & -> & I)|(k & m & -> & ->)].
      - exists [P k (OVar v)]. eexists. split; [apply ev_value; [eapply int_settled, I|apply ev_nil]|]. split; [repeat constructor; exists k, v; auto|apply changes_refl].
      - destruct (IH (noted st0 s (v_tok h))) as (v & st1 & EV & I & C1); [eapply changes_trans; eassumption|eapply calm_operators; eassumption|].
        eexists. eexists. split; [eapply ev_list; [exact EV|eapply int_settled, I|split; reflexivity|apply ev_nil]|].
        split; [repeat constructor; eexists; exists v; auto|]. eapply changes_trans; [exact C1|apply changes_nid]. }
    destruct EV as (rs & st1 & EV & IA & C1). inversion IA as [|r0 z0 rs' zs' (k & v & -> & I) IA']; subst. inversion IA'; subst.
    destruct (negate_exact v z k s st1 I F) as (r & B & R). exists r, st1. split; [|split; [exact R|eapply changes_trans; eassumption]].
    eapply op_step; [exact E|exact SY|cbn; tauto|exact CH|exact U|apply Forall2_cons; [exact LU|apply Forall2_nil]|exact EV|exact B].
  - intros i l j h name a z E SY IN DA ((q & LU & Q) & IH). split; [exists (P i (OList l)); split; [apply lu_list|right; exists i, l; auto]|].
    intros st0 CH U. assert (CN := changes_noted no_var st0 s (v_tok h)).
    assert (EV : exists rs st1, evaluated s [q] (noted st0 s (v_tok h)) rs st1 /\ int_args rs [z] /\ changes_only no_var (noted st0 s (v_tok h)) st1).
    { destruct Q as [(k & v & -> & I)|(k & m & -> & ->)].
      - exists [P k (OVar v)]. eexists. split; [apply ev_value; [eapply int_settled, I|apply ev_nil]|]. split; [repeat constructor; exists k, v; auto|apply changes_refl].
      - destruct (IH (noted st0 s (v_tok h))) as (v & st1 & EV & I & C1); [eapply changes_trans; eassumption|eapply calm_operators; eassumption|].
        eexists. eexists. split; [eapply ev_list; [exact EV|eapply int_settled, I|split; reflexivity|apply ev_nil]|].
        split; [repeat constructor; eexists; exists v; auto|]. eapply changes_trans; [exact C1|apply changes_nid]. }
    destruct EV as (rs & st1 & EV & IA & C1). inversion IA as [|r0 z0 rs' zs' (k & v & -> & I) IA']; subst. inversion IA'; subst.
    destruct (single_operand name v z k s st1) as (r & B & R); [destruct IN as [<-|[<-|[]]]; auto|exact I|]. exists r, st1. split; [|split; [exact R|eapply changes_trans; eassumption]].
    eapply op_step; [exact E|exact SY|destruct IN as [<-|[<-|[]]]; cbn; tauto|exact CH|exact U|apply Forall2_cons; [exact LU|apply Forall2_nil]|exact EV|exact B].
  - exists []. split; [constructor|]. intros st0 _ _. exists [], st0. split; [apply ev_nil|]. split; [constructor|apply changes_refl].
  - intros p ps z zs D ((q & LU & Q) & IH) DA (qs & LUS & IHS). exists (q :: qs). split; [constructor; assumption|]. intros st0 CH U.
    destruct Q as [(k & v & -> & I)|(k & m & -> & ->)].
    + destruct (IHS st0 CH U) as (rs & st' & EV & IA & C1). exists (P k (OVar v) :: rs), st'. split; [apply ev_value; [eapply int_settled, I|exact EV]|].
      split; [constructor; [exists k, v; auto|exact IA]|exact C1].
    + destruct (IH st0 CH U) as (v & st1 & EV & I & C1). assert (C2 := changes_nid no_var st1 (Pos.succ (st_nid st1))).
      assert (C3 := changes_trans _ _ _ _ C1 C2). destruct (IHS _ (changes_trans _ _ _ _ CH C3) (calm_operators _ _ _ C3 U)) as (rs & st' & EVS & IA & C4).
      eexists. exists st'. split; [eapply ev_list; [exact EV|eapply int_settled, I|split; reflexivity|exact EVS]|].
      split; [constructor; [eexists; exists v; auto|exact IA]|eapply changes_trans; eassumption].
Qed.
Lemma calc_value : forall st s p z, denotes st s p z -> usual_operators st s ->
  exists v st', evals p s st (Val (Some v)) st' /\ is_int v z /\ changes_only no_var st st'.
Proof. intros st s p z D U. destruct (calc_both st s) as (H & _). destruct (H p z D) as (_ & K). apply K; [apply changes_refl|exact U]. Qed.
Lemma fails_after : forall s qs st rs st1, evaluated s qs st rs st1 -> forall ps o st2, evaluation_fails s ps st1 o st2 -> evaluation_fails s (qs ++ ps) st o st2.
Proof.
  intros s qs st rs st1 H. induction H as [st|i v ps st qs st' SE _ IH|i l ps st v st1 st2 q qs st3 EV SE BX _ IH]; intros ps2 o st4 K; cbn [app].
  - exact K. - apply ef_value; auto. - eapply ef_list; eauto.
Qed.
Lemma overflow_both : forall st s p, overflows st s p -> (exists i l, p = P i (OList l)) /\ forall st0, changes_only no_var st st0 -> usual_operators st0 s ->
  exists st', evals p s st0 (Undef UBOverflow) st'.
Proof.
  intros st s p H. destruct (calc_both st s) as (C1 & C2).
  induction H as [i l j h name f args z zs E SY OP DA NF|i l j h a z E SY DA NF|i l j h name ps zs p rest E SY IN DA OV IH RA];
    (split; [eexists; eexists; reflexivity|]); intros st0 CH U; assert (CN := changes_noted no_var st0 s (v_tok h)).
  - destruct (C2 _ _ DA) as (qs & LU & IH). destruct (IH (noted st0 s (v_tok h))) as (rs & st1 & EV & IA & _);
      [eapply changes_trans; eassumption|eapply calm_operators; eassumption|].
    exists st1. eapply op_step; try eassumption; [eapply operation_in, OP|]. eapply operation_overflow; eassumption.
  - assert (DA1 : denote_all st s [a] [z]) by (apply da_cons; [exact DA|apply da_nil]).
    destruct (C2 _ _ DA1) as (qs & LU & IH). destruct (IH (noted st0 s (v_tok h))) as (rs & st1 & EV & IA & _);
      [eapply changes_trans; eassumption|eapply calm_operators; eassumption|].
    inversion IA as [|r0 z0 rs' zs' (k & v & -> & I) IA']; subst. inversion IA'; subst.
    exists st1. eapply op_step; try eassumption; [cbn; tauto|]. eapply negate_overflow; eassumption.
  - destruct IH as ((k & m & ->) & IH). destruct (C2 _ _ DA) as (qs & LU & IH2).
    destruct (IH2 (noted st0 s (v_tok h))) as (rs & st1 & EV & IA & CH1); [eapply changes_trans; eassumption|eapply calm_operators; eassumption|].
    assert (CH2 : changes_only no_var st0 st1) by (eapply changes_trans; eassumption).
    destruct (IH st1) as (st' & EVP); [eapply changes_trans; eassumption|eapply calm_operators; eassumption|]. exists st'.
    assert (R : exists rest', Forall2 (looked_up st s) rest rest').
    { clear -RA. induction RA as [|q rest (r & L) _ (rest' & F)]; [exists []; constructor|exists (r :: rest'); constructor; assumption]. }
    destruct R as (rest' & R). destruct (usual_at _ _ _ U IN) as (f & BF & M).
    assert (F : form st0 (P i (OList l)) name (v_tok h) (ps ++ P k (OList m) :: rest)) by (eapply form_at; [rewrite (changes_vec _ _ _ _ CH); exact E|exact SY]).
    eapply (ordinary_fails st0 s _ name (v_tok h) _ (qs ++ P k (OList m) :: rest') f); try eassumption; try discriminate.
    + assert (SP := fn_sp_ops _ IN). rewrite BF in SP. cbn in SP. congruence.
    + eapply looked_up_all_calm; [exact CH|]. apply Forall2_app; [exact LU|]. constructor; [apply lu_list|exact R].
    + eapply fails_after; [exact EV|]. eapply ef_here; [exact EVP|]. reflexivity.
Qed.
Lemma calc_overflow : forall st s p, overflows st s p -> usual_operators st s -> exists st', evals p s st (Undef UBOverflow) st'.
Proof. intros st s p H U. destruct (overflow_both st s p H) as (_ & K). apply K; [apply changes_refl|exact U]. Qed.

(** ** A counting loop *)
Lemma form_changes : forall V st st' p name tok args, changes_only V st st' -> form st p name tok args -> form st' p name tok args.
Proof.
  intros V st st' p name tok args CH (j & v & X & R). exists j, v. split; [|exact R]. destruct X as [(i & l & E & Q)|(i & w & l & E & T & W & Q)].
  - left. exists i, l. split; [exact E|]. rewrite (changes_vec _ _ _ _ CH). exact Q.
  - right. exists i, w, l. split; [exact E|]. split; [exact T|]. split; [exact W|]. rewrite (changes_vec _ _ _ _ CH). exact Q.
Qed.
Lemma enclosing_one : forall st st' t x p0 p1 s r, changes_only (one_var t x) st st' -> var_at st t x = Some p0 -> var_at st' t x = Some p1 ->
  enclosing st x s r -> match r with Some (c, _) => exists p', enclosing st' x s (Some (c, p')) | None => enclosing st' x s None end.
Proof.
  intros st st' t x p0 p1 s r CH V0 V1 H. induction H as [s sc H C|s sc c p H C L X W|s sc c r H C L X W R IH];
    destruct (changes_scope _ _ _ _ _ CH H) as (sc' & H' & G & CL & _).
  - eapply en_none; [exact H'|congruence].
  - destruct (Pos.eq_dec c t) as [->|Q].
    + exists p1. eapply en_here; [exact H'|rewrite CL; exact C|exact L|eapply changes_exists; eassumption|exact V1].
    + exists p. eapply en_here; [exact H'|rewrite CL; exact C|exact L|eapply changes_exists; eassumption|]. rewrite (changes_var (one_var t x) st); eauto. intros (A & _). contradiction.
  - assert (Q : c <> t) by congruence. assert (W' : var_at st' c x = None) by (rewrite (changes_var (one_var t x) st); eauto; intros (A & _); contradiction).
    destruct r as [(d & q)|].
    + destruct IH as (p' & IH). exists p'. eapply en_up; [exact H'|rewrite CL; exact C|exact L|eapply changes_exists; eassumption|exact W'|exact IH].
    + eapply en_up; [exact H'|rewrite CL; exact C|exact L|eapply changes_exists; eassumption|exact W'|exact IH].
Qed.
Lemma assigns_var : forall st s x t, assigns st s x t -> exists p, var_at st t x = Some p.
Proof. intros st s x t H. destruct H as [p|c p X V E|]; eauto. exists p. eapply enclosing_var; eassumption. Qed.
Lemma assigns_one : forall st st' s t x p1, changes_only (one_var t x) st st' -> var_at st' t x = Some p1 -> assigns st s x t -> assigns st' s x t.
Proof.
  intros st st' s t x p1 CH V1 A. destruct (assigns_var _ _ _ _ A) as (p0 & V0).
  destruct (Pos.eq_dec t s) as [->|Q].
  { eapply as_own; [|exact V1]. eapply changes_exists; [exact CH|]. inversion A; subst; auto; eexists; eassumption. }
  assert (NV : forall u, u <> t -> var_at st' u x = var_at st u x) by (intros u N; apply (changes_var (one_var t x) st); [exact CH|intros (B & _); contradiction]).
  destruct A as [p X V|c p X V E|sc p H V E X G]; [contradiction| |].
  - assert (K := enclosing_one _ _ _ _ _ _ _ _ CH V0 V1 E). cbn in K. destruct K as (p' & K).
    eapply as_enclosing; [eapply changes_exists; eassumption|rewrite NV; [exact V|congruence]|exact K].
  - assert (K := enclosing_one _ _ _ _ _ _ _ _ CH V0 V1 E). cbn in K. destruct (changes_scope _ _ _ _ _ CH H) as (sc' & H' & GL & _). rewrite <- GL in *.
    eapply as_global; [exact H'|rewrite NV; [exact V|congruence]|exact K|eapply changes_exists; eassumption|exact V1].
Qed.
Lemma own_one : forall st st' s t x names p1, changes_only (one_var t x) st st' -> var_at st' t x = Some p1 -> own_variable st s t x names -> own_variable st' s t x names.
Proof.
  intros st st' s t x names p1 CH V1 (N1 & N2 & N3 & N4 & sc & H & XG & A & MO & C). destruct (changes_scope _ _ _ _ _ CH H) as (sc' & H' & GL & _).
  repeat split; try assumption. exists sc'. rewrite GL. split; [exact H'|]. split; [eapply changes_exists; eassumption|]. split; [eapply assigns_one; eassumption|].
  split.
  - intros i ms E. apply (MO i ms). rewrite <- E. symmetry. apply (changes_var (one_var t x) st); [exact CH|]. intros (_ & B). congruence.
  - destruct C as [C|[C|C]]; [auto|auto|]. destruct (Pos.eq_dec t (s_global sc)) as [E|NE]; [auto|]. right. right. rewrite (changes_var (one_var t x) st); eauto. intros (B & _). congruence.
Qed.
Lemma own_sees : forall st s t x names p, own_variable st s t x names -> var_at st t x = Some p -> sees st s x (Some p).
Proof.
  intros st s t x names p (N1 & N2 & N3 & N4 & sc & H & XG & A & MO & C) V. destruct A as [q X W|c q X W E|sc1 q H1 W E X G].
  - apply se_own; [exact X|exact V].
  - assert (CV := enclosing_var _ _ _ _ _ E). assert (q = p) by congruence. subst q.
    destruct (var_at st (s_global sc) x) as [g|] eqn:EG.
    + assert (c = s_global sc) as -> by (destruct C as [C|[C|C]]; congruence). eapply se_global; [exact H|exact W|exact XG|exact V].
    + eapply se_enclosing; [exact H|exact W|exact XG|exact EG|exact E].
  - eapply se_global; [exact H1|exact W|exact X|exact V].
Qed.
Lemma own_apart : forall st s t x names name, own_variable st s t x names -> In name names -> apart (one_var t x) st s name.
Proof.
  intros st s t x names name (N1 & N2 & N3 & N4 & sc & H & XG & A & MO & C) IN. split.
  - intros u (_ & B). apply N4. congruence.
  - intros sc1 H1. assert (sc1 = sc) by congruence. subst sc1. split; [|split].
    + intros (_ & B). congruence. + intros (_ & B). congruence.
    + intros i ms E n (B & _). exact (MO i ms E B).
Qed.
Definition loop_names : list str := [$"while"; $"<"; $"setf"; $"+"].
(** The situation before each round. *)
Record ready (st : state) (s t : sid) (x : str) (p c b : ptr) (tok : option token) (N k : Z) : Prop := {
  rd_code : counting_loop st p x N tok c b;
  rd_std : forall name, In name loop_names -> standard st s name;
  rd_own : own_variable st s t x loop_names;
  rd_val : exists i v, var_at st t x = Some (P i (OVar v)) /\ is_int v k;
  rd_ret : leaving st s false
}.
Lemma ready_noted : forall st s t x p c b tok N k u tok', ready st s t x p c b tok N k -> ready (noted st u tok') s t x p c b tok N k.
Proof.
  intros st s t x p c b tok N k u tok' [C S O (i & v & V & I) L]. assert (CN := changes_noted no_var st u tok').
  assert (C1 : changes_only (one_var t x) st (noted st u tok')) by apply changes_noted.
  assert (V' : var_at (noted st u tok') t x = Some (P i (OVar v))) by (rewrite noted_var; exact V). constructor.
  - destruct C as (F & ic & lc & ib & lb & ie & le & tc & tb & te & x1 & x2 & x3 & n & one & vn & vo & jn & jo & Ec & Fc & Eb & Fb & Fe & R). split; [eapply form_changes; eassumption|].
    exists ic, lc, ib, lb, ie, le, tc, tb, te, x1, x2, x3, n, one, vn, vo, jn, jo. repeat (split; [first [exact Ec|exact Eb|eapply form_changes; eassumption]|]). exact R.
  - intros name IN. eapply standard_changes; [exact CN|apply apart_none|apply S, IN].
  - eapply own_one; eassumption.
  - exists i, v. auto.
  - destruct L as (sc & H & R). destruct (changes_scope _ _ _ _ _ CN H) as (sc' & H' & _ & _ & _ & IR & _). exists sc'. split; congruence.
Qed.
Lemma lt_sp : option_map fn_sp (builtin_fn $"<") = Some false. Proof. vm_compute; reflexivity. Qed.
Lemma add_sp : option_map fn_sp (builtin_fn $"+") = Some false. Proof. vm_compute; reflexivity. Qed.
(** The condition. *)
Lemma loop_condition : forall st s t x p c b tok N k, ready st s t x p c b tok N k ->
  exists v tok1, evals c s st (Val (Some v)) (noted st s tok1) /\ truth v (k <? N)%Z.
Proof.
  intros st s t x p c b tok N k [C S O (i & v & V & I) L].
  destruct C as (F & ic & lc & ib & lb & ie & le & tc & tb & te & x1 & x2 & x3 & n & one & vn & vo & jn & jo & Ec & Fc & Eb & Fb & Fe & X1 & X2 & X3 & -> & IN & -> & I1).
  assert (SE := own_sees _ _ _ _ _ _ O V).
  destruct (order_ints v vn k N I IN) as (D & _). destruct (D i jn s (noted st s tc)) as (bb & BQ & r & BC & R).
  exists r, tc. split.
  - apply (ordinary_builtin st s c $"<" tc [x1; P jn (OVar vn)] [P i (OVar v); P jn (OVar vn)] [P i (OVar v); P jn (OVar vn)] (noted st s tc)); try assumption.
    + apply S. cbn; tauto.
    + apply lt_sp.
    + constructor; [eapply lu_var; eassumption|]. constructor; [apply lu_value; destruct IN as [-> _]; discriminate|constructor].
    + apply ev_value; [eapply int_settled, I|]. apply ev_value; [eapply int_settled, IN|]. apply ev_nil.
  - apply tr_bool. replace (k <? N)%Z with bb; [exact R|]. apply eq_true_iff_eq. rewrite BQ, Z.ltb_lt. tauto.
Qed.
(** The body. *)
Lemma loop_body : forall st s t x p c b tok N k, ready st s t x p c b tok N k -> fits (k + 1) ->
  exists r st', evals b s st (Val r) st' /\ ready st' s t x p c b tok N (k + 1) /\ changes_only (one_var t x) st st'.
Proof.
  intros st s t x p c b tok N k RD F1. assert (RD0 := RD). destruct RD as [C S O (i & v & V & I) L].
  destruct C as (F & ic & lc & ib & lb & ie & le & tc & tb & te & x1 & x2 & x3 & n & one & vn & vo & jn & jo & Ec & Fc & Eb & Fb & Fe & X1 & X2 & X3 & -> & IN & -> & I1).
  set (st1 := noted st s tb). assert (RD1 : ready st1 s t x p c b tok N k) by (apply ready_noted, RD0).
  destruct RD1 as [C1 S1 O1 (i' & v' & V' & I') L1]. assert (SE := own_sees _ _ _ _ _ _ O1 V').
  assert (Fe1 : form st1 (P ie (OList le)) $"+" te [x3; P jo (OVar vo)]) by (eapply form_changes; [apply (changes_noted no_var)|exact Fe]).
  set (st2 := noted st1 s te). 
  assert (AF : all_fit Z.add k [1%Z]) by (cbn; auto).
  assert (IA : int_args [P i' (OVar v'); P jo (OVar vo)] [k; 1%Z]) by (constructor; [eexists; eexists; split; [reflexivity|exact I']|constructor; [eexists; eexists; split; [reflexivity|exact I1]|constructor]]).
  destruct (operation_exact $"+" Z.add [P i' (OVar v'); P jo (OVar vo)] k [1%Z] s st2) as (r & B & R); [left; auto|exact IA|discriminate|exact AF|]. cbn [fold_left] in R.
  assert (EV : evals (P ie (OList le)) s st1 (Val (Some r)) st2).
  { apply (ordinary_builtin st1 s _ $"+" te [x3; P jo (OVar vo)] [P i' (OVar v'); P jo (OVar vo)] [P i' (OVar v'); P jo (OVar vo)] st2); try assumption.
    - apply S1. cbn; tauto.
    - apply add_sp.
    - constructor; [eapply lu_var; eassumption|]. constructor; [apply lu_value; destruct I1 as [-> _]; discriminate|constructor].
    - apply ev_value; [eapply int_settled, I'|]. apply ev_value; [eapply int_settled, I1|]. apply ev_nil. }
  assert (RD2 : ready st2 s t x p c b tok N k) by (apply ready_noted, ready_noted, RD0).
  destruct (setf_sets st s b tb x2 (P ie (OList le)) x r st2 t) as (st' & EB & VB); try assumption.
  - apply S. cbn; tauto. - apply O. - exact Logic.I.
  - destruct RD2 as [_ _ (_ & _ & _ & _ & sc & _ & _ & A & _) _ _]. exact A.
  - assert (CH : changes_only (one_var t x) st2 st') by (eapply changes_becomes, VB).
    assert (CH2 : changes_only (one_var t x) st st') by (eapply changes_trans; [|exact CH]; eapply changes_trans; apply changes_noted).
    exists (Some r), st'. split; [exact EB|]. split; [|exact CH2].
    destruct VB as ((jj & VB) & _). destruct RD2 as [C2 S2 O2 _ L2]. constructor.
    + destruct C2 as (G & ic' & lc' & ib' & lb' & ie' & le' & tc' & tb' & te' & y1 & y2 & y3 & n' & one' & vn' & vo' & jn' & jo' & Ec' & Fc' & Eb' & Fb' & Fe' & R').
      split; [eapply form_changes; [exact CH|eassumption]|].
      exists ic', lc', ib', lb', ie', le', tc', tb', te', y1, y2, y3, n', one', vn', vo', jn', jo'. repeat (split; [first [exact Ec'|exact Eb'|eapply form_changes; [exact CH|eassumption]]|]). exact R'.
    + intros name NN. eapply standard_changes; [exact CH|eapply own_apart; eassumption|apply S2, NN].
    + eapply own_one; eassumption.
    + exists jj, r. auto.
    + destruct L2 as (sc & H & RR). destruct (changes_scope _ _ _ _ _ CH H) as (sc' & H' & _ & _ & _ & IR & _). exists sc'. split; congruence.
Qed.
Lemma loop_rounds : forall n st s t x p c b tok N k r0, ready st s t x p c b tok N k -> N = (k + Z.of_nat n)%Z -> fits k -> fits N ->
  exists r st', rounds_of c b s n r0 st r st' /\ ready st' s t x p c b tok N N /\ changes_only (one_var t x) st st'.
Proof.
  induction n as [|n IH]; intros st s t x p c b tok N k r0 RD E FK FN; destruct (loop_condition _ _ _ _ _ _ _ _ _ _ RD) as (v & t1 & EC & TR).
  - assert (k = N) by lia. subst k. rewrite Z.ltb_irrefl in TR. exists r0, (noted st s t1). split; [eapply ro_end; eassumption|]. split; [apply ready_noted, RD|apply changes_noted].
  - rewrite (proj2 (Z.ltb_lt k N)) in TR by lia.
    destruct (loop_body (noted st s t1) s t x p c b tok N k) as (r1 & st2 & EB & RD2 & CH); [apply ready_noted, RD|unfold fits in *; lia|].
    destruct (IH st2 s t x p c b tok N (k + 1)%Z r1 RD2) as (r & st' & RO & RD' & CH'); [lia|unfold fits in *; lia|exact FN|].
    exists r, st'. split; [eapply ro_more; try eassumption; apply RD2|]. split; [exact RD'|].
    eapply changes_trans; [apply changes_noted|]. eapply changes_trans; eassumption.
Qed.
Lemma loop_counts : forall st s t x p c b tok N k i v, counting_loop st p x N tok c b -> (forall name, In name [$"while"; $"<"; $"setf"; $"+"] -> standard st s name) ->
  own_variable st s t x [$"while"; $"<"; $"setf"; $"+"] -> var_at st t x = Some (P i (OVar v)) -> is_int v k -> leaving st s false ->
  (k <= N)%Z -> fits k -> fits N ->
  exists r st', evals p s st (Val r) st' /\ rounds_of c b s (Z.to_nat (N - k)) (Some vundef) (noted st s tok) r st' /\
    (exists j w, var_at st' t x = Some (P j (OVar w)) /\ is_int w N) /\ changes_only (one_var t x) st st'.
Proof.
  intros st s t x p c b tok N k i v C S O V I L LE FK FN.
  assert (RD : ready st s t x p c b tok N k) by (constructor; try assumption; exists i, v; auto).
  destruct (loop_rounds (Z.to_nat (N - k)) (noted st s tok) s t x p c b tok N k (Some vundef)) as (r & st' & RO & RD' & CH); [apply ready_noted, RD|lia|exact FK|exact FN|].
  exists r, st'. split; [|split; [exact RO|split; [apply RD'|eapply changes_trans; [apply changes_noted|exact CH]]]].
  destruct C as (F & ic & lc & ib & lb & R). apply (while_value st s p tok c b F); [apply S; cbn; tauto| |].
  - destruct R as (ie & le & tc & tb & te & x1 & x2 & x3 & n & one & vn & vo & jn & jo & -> & _ & -> & _). constructor; [exact Logic.I|]. constructor; [exact Logic.I|constructor].
  - eexists. exact RO.
Qed.
