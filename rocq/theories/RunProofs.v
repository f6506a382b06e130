(** Consequences of the evaluator-wide invariants for runs of scripts. *)
Require Import String Ascii List ZArith Bool Lia.
Require Import PArith FMapPositive.
From Verif Require Import Base CppString Num Token Tokenizer Parser Value State Show ScopeOps Builtins Table Eval LispTop
  SpecRun RelProofs FuelProofs FrameProofs Wf WfRead WfProofs.
Import ListNotations.

(** ** The step budget does not matter *)
Definition monotone {A} (f : nat -> M A) : Prop := forall n m, (n <= m)%nat -> le (f n) (f m).
Lemma ends_det : forall A (f : nat -> M A) st o1 st1 o2 st2, monotone f ->
  ends_with f st o1 st1 -> ends_with f st o2 st2 -> o1 = o2 /\ st1 = st2.
Proof.
  intros A f st o1 st1 o2 st2 Mo (n & H1 & N1) (m & H2 & N2). assert (E : (o1, st1) = (o2, st2)); [|injection E; auto].
  destruct (Nat.le_ge_cases n m) as [L|L].
  - pose proof (Mo _ _ L st) as Q. rewrite H1, H2 in Q. symmetry. apply Q. exact N1.
  - pose proof (Mo _ _ L st) as Q. rewrite H1, H2 in Q. apply Q. exact N2.
Qed.
Lemma ends_at : forall A (f : nat -> M A) st o st' n m, monotone f -> f n st = (o, st') -> o <> NoFuel -> (n <= m)%nat -> f m st = (o, st').
Proof. intros A f st o st' n m Mo H N L. rewrite <- H. apply (Mo _ _ L). rewrite H. exact N. Qed.
Lemma mono_eval : forall p s, monotone (fun n => r_eval (run n) p s).
Proof. intros p s n m L. apply lr_eval. apply le_run. exact L. Qed.
Lemma mono_call : forall f a s, monotone (fun n => r_call (run n) f a s).
Proof. intros f a s n m L. apply lr_call. apply le_run. exact L. Qed.
Lemma mono_script : forall tr oe c mn, monotone (fun n => eval_script n tr oe c mn).
Proof. intros tr oe c mn n m L. apply le_eval_script. exact L. Qed.
Lemma mono_save : forall vb tr oe c mn, monotone (fun n => save_eval n vb tr oe c mn).
Proof. intros vb tr oe c mn n m L. apply le_save_eval. exact L. Qed.

(** ** Reachable states are well-formed *)
Lemma reachable_ok : forall st, reachable st -> ok st /\ scope_in st main_sid.
Proof.
  intros st H. induction H as [inp files e|st n tr oe code modname H IH|st n vb tr oe code modname H IH].
  - split; [apply ok_init|]. apply init_scope_in. auto.
  - destruct IH as [K S]. destruct (okm_eval_script st n tr oe code modname S st (ext_refl _) K) as [E [K' _]].
    split; [exact K'|]. apply (ext_scope _ _ E). exact S.
  - destruct IH as [K S]. destruct (okm_save_eval st n vb tr oe code modname S st (ext_refl _) K) as [E [K' _]].
    split; [exact K'|]. apply (ext_scope _ _ E). exact S.
Qed.

Lemma chain_ends_of : forall link st, ok st ->
  (forall s sc c, scope_at st s = Some sc -> link sc = Some c -> scope_in st c /\ (c < s)%positive) ->
  forall s, scope_in st s -> chain_ends link st s.
Proof.
  intros link st K HL s. induction s as [s IH] using (well_founded_induction (well_founded_ltof sid Pos.to_nat)). intro S. apply in_found in S.
  destruct (scope_at st s) as [sc|] eqn:E; unfold scope_at in E; [|congruence].
  destruct (link sc) as [c|] eqn:L.
  - destruct (HL s sc c E L). eapply ce_more; eauto. apply IH; auto. unfold ltof. lia.
  - eapply ce_last; eauto.
Qed.
Lemma chains_end : forall st s sc, reachable st -> scope_at st s = Some sc ->
  chain_ends s_closure st s /\ chain_ends s_prev st s.
Proof.
  intros st s sc R E. destruct (reachable_ok st R) as [K _].
  assert (S : scope_in st s) by (apply in_plain; unfold scope_at in E; congruence).
  split; apply chain_ends_of; auto; intros s' sc' c E' L; destruct (ok_scope_at st s' sc' K E') as [_ [A B G C [D2 D3]]]; auto.
  destruct (D2 c L). split; [apply in_plain|]; assumption.
Qed.

Lemma oks_healthy : forall A (o : out A) Q, oks o Q -> healthy o.
Proof. intros A o Q H. destruct o; repeat split; try discriminate; intros [= ->]; cbn in H; destruct H as [? []]; congruence. Qed.
Lemma okm_healthy : forall A w (m : M A) Q, okm w m Q -> ok w -> healthy (fst (m w)).
Proof. intros A w m Q H K. destruct (H w (ext_refl _) K) as [_ [_ R]]. eapply oks_healthy; eauto. Qed.

Lemma lookup_healthy : forall st s sc name i, reachable st -> scope_at st s = Some sc ->
  let sym := P i (OVar (mkv TSym (OString name))) in
  healthy (fst (resolve s sym st)) /\ fst (resolve s sym st) <> NoFuel.
Proof.
  intros st s sc name i R E. destruct (reachable_ok st R) as [K _].
  assert (S : scope_in st s) by (apply in_plain; unfold scope_at in E; congruence).
  intro sym. split.
  - apply okm_healthy with (Q := ok_ptr); auto. apply okm_resolve; auto. cbn. auto.
  - assert (N : forall A (o : out A) B (f : A -> out B), o <> NoFuel -> (forall a, f a <> NoFuel) -> obind o f <> NoFuel).
    { intros A o B f H1 H2. destruct o; cbn; auto; discriminate. }
    assert (NB : forall A (m : M A) B (f : A -> M B) st, fst (m st) <> NoFuel -> (forall a st, fst (f a st) <> NoFuel) ->
      fst (bind m f st) <> NoFuel).
    { intros A m B f st0 H1 H2. unfold bind. destruct (m st0) as [o st1]. destruct o; cbn in *; auto; discriminate. }
    assert (GS : forall s st, get_scope s st <> NoFuel).
    { intros. unfold get_scope. destruct (PositiveMap.find _ _); discriminate. }
    assert (SF : forall s n st, scope_find s n st <> NoFuel).
    { intros. unfold scope_find. apply N; [apply GS|]. discriminate. }
    assert (CF : forall n s k st, closure_find n s k st <> NoFuel).
    { induction n; intros; cbn [closure_find]; [discriminate|]. apply N; [apply GS|]. intro a.
      destruct (s_closure a); [|discriminate]. apply N; [apply SF|]. intros [p|]; [discriminate|apply IHn]. }
    unfold resolve. apply NB; [cbn [reads fst]; unfold sym, ptr_str; cbn; discriminate|]. intros nm st1.
    apply NB; [apply SF|]. intros [p|] st2; [discriminate|].
    apply NB; [apply GS|]. intros g st3. apply NB; [apply SF|]. intros [p|] st4; [discriminate|].
    apply NB; [apply CF|]. intros [[c p]|] st5; [discriminate|].
    apply NB; [|intros [p|] st6; discriminate].
    unfold find_in_modules. apply NB.
    + unfold scope_index. apply NB; [apply GS|]. intros a st6. destruct (vars_find k_modules (s_vars a)); [discriminate|].
      apply NB; [|discriminate]. unfold scope_set, mod_scope. apply NB; [apply GS|]. discriminate.
    + intros [|j o] st6; [discriminate|]. apply NB; [destruct o; discriminate|]. intros ms st7. apply NB; [apply GS|].
      intros sc' st8. cbn [reads fst]. clear. assert (N : forall A (o : out A) B (f : A -> out B), o <> NoFuel -> (forall a, f a <> NoFuel) -> obind o f <> NoFuel).
      { intros A o B f H1 H2. destruct o; cbn; auto; discriminate. }
      induction (s_vars sc') as [|[k p] l IH]; cbn [modules_search]; [discriminate|].
      apply N; [destruct p as [|? []]; discriminate|]. intro a. apply N; [|intros [x|]; [discriminate|apply IH]].
      unfold scope_find. apply N; [|discriminate]. unfold get_scope. destruct (PositiveMap.find _ _); discriminate.
Qed.
Lemma assign_healthy : forall st s sc name i o, reachable st -> scope_at st s = Some sc -> ok_obj st o ->
  healthy (fst (set_in_scopes s name (P i o) st)).
Proof.
  intros st s sc name i o R E Ho. destruct (reachable_ok st R) as [K _].
  assert (S : scope_in st s) by (apply in_plain; unfold scope_at in E; congruence).
  eapply okm_healthy; auto. apply okm_set_in_scopes; auto.
Qed.
Lemma depth_total : forall st s sc, reachable st -> scope_at st s = Some sc ->
  exists scs, call_stack s st = Val scs.
Proof.
  intros st s sc R E. destruct (chains_end st s sc R E) as [_ C].
  destruct (reachable_ok st R) as [K _]. unfold call_stack.
  assert (G : forall n s, chain_ends s_prev st s -> (Pos.to_nat s <= n)%nat -> exists scs, stack_of n s st = Val scs).
  { clear - K. induction n as [|n IH]; intros s C L; [lia|]. cbn [stack_of]. unfold get_scope.
    inversion C as [s0 sc E N|s0 sc c E N C']; subst; unfold scope_at in E; rewrite E; cbn [obind]; rewrite N; [eauto|].
    destruct (ok_scopes st K s sc E) as (_ & O & _). destruct (ol_prev _ _ _ O c N) as [_ Lt].
    destruct (IH c C') as [scs Es]; [lia|]. rewrite Es. cbn. eauto. }
  apply G; auto.
Qed.
Lemma run_healthy : forall st n tr oe code modname, reachable st -> healthy (fst (eval_script n tr oe code modname st)).
Proof.
  intros st n tr oe code modname R. destruct (reachable_ok st R) as [K S].
  eapply okm_healthy; auto. apply okm_eval_script. exact S.
Qed.
Lemma save_healthy : forall st n vb tr oe code modname, reachable st -> healthy (fst (save_eval n vb tr oe code modname st)).
Proof.
  intros st n vb tr oe code modname R. destruct (reachable_ok st R) as [K S].
  eapply okm_healthy; auto. apply okm_save_eval. exact S.
Qed.

(** ** Tags *)
Lemma ok_var_tagged : forall st v, ok_var st v -> tagged st v.
Proof.
  intros st [t [o|] u k] H; cbn in H; unfold tagged; cbn [v_ty v_val].
  - destruct H as [T O]. destruct t, o; cbn in T; try contradiction; eauto; cbn in O.
    + exists z. split; [reflexivity|]. apply in_int_range in O. unfold int_min, int_max in O. lia.
    + destruct O as [O _]. unfold vec_any in O. unfold vec_at. destruct (PositiveMap.find l (st_vecs st)) as [es|] eqn:F; [|congruence]. exists l, es. auto.
    + destruct O as [O _]. unfold dict_any in O. unfold dict_at. destruct (PositiveMap.find l (st_dicts st)) as [es|] eqn:F; [|congruence]. exists l, es. auto.
  - destruct H as [->| ->]; exact I.
Qed.
Lemma run_tagged : forall st n tr oe code modname v st', reachable st ->
  eval_script n tr oe code modname st = (Val (Some v), st') -> tagged st' v.
Proof.
  intros st n tr oe code modname v st' R E. destruct (reachable_ok st R) as [K S].
  destruct (okm_eval_script st n tr oe code modname S st (ext_refl _) K) as [_ [_ H]]. rewrite E in H. cbn in H.
  apply ok_var_tagged. exact H.
Qed.
Lemma stored_tagged : forall st v, reachable st -> stored st v -> tagged st v.
Proof.
  intros st v R H. destruct (reachable_ok st R) as [K _]. apply ok_var_tagged.
  destruct H as [(s & sc & k & i & E & I1)|[(l & es & i & E & I1)|(l & d & o & E & I1)]].
  - destruct (ok_scope_at st s sc K E) as [_ O]. pose proof (os_vars _ _ _ O) as V. unfold vars_ok in V. rewrite all_in in V.
    exact (V _ I1).
  - destruct (ok_vecs st K l es E) as [_ O]. rewrite all_in in O. exact (O (fun x => x) _ I1).
  - destruct (ok_dicts st K l d E) as [_ O]. unfold dict_ok in O. rewrite all_in in O. exact (proj1 (O (fun x => x) _ I1)).
Qed.

(** Assigning a name: which way it ends does not depend on the value. *)
Lemma assign_value_irrelevant : forall s name p q st, fst (set_in_scopes s name p st) = fst (set_in_scopes s name q st).
Proof.
  intros s name p q st. unfold set_in_scopes. destruct name as [|c name]; [reflexivity|].
  unfold bind, reads. destruct (scope_find s (c :: name) st) as [[x|]| | | |]; try reflexivity.
  - unfold scope_set, mod_scope, bind, reads. destruct (get_scope s st); reflexivity.
  - destruct (in_closure_chain s (c :: name) st) as [[[x y]|]| | | |]; try reflexivity.
    + unfold scope_set, mod_scope, bind, reads. destruct (get_scope x st); reflexivity.
    + destruct (get_scope s st) as [sc| | | |] eqn:G; try reflexivity.
      destruct (scope_find (s_global sc) (c :: name) st) as [[x|]| | | |]; try reflexivity.
      unfold scope_set, mod_scope, bind, reads. destruct (get_scope (s_global sc) st); reflexivity.
Qed.
Lemma assign_healthy_any : forall st s sc name p, reachable st -> scope_at st s = Some sc ->
  healthy (fst (set_in_scopes s name p st)).
Proof.
  intros st s sc name p R E. rewrite (assign_value_irrelevant s name p (P 1 (OInt 0)) st).
  eapply assign_healthy; eauto. reflexivity.
Qed.

(** ** Output, input, environment *)
Lemma io_refl : forall st, io_kept st st.
Proof. intro st. split; [exists []; rewrite app_nil_r; reflexivity|]. split; [exists []; reflexivity|reflexivity]. Qed.
Lemma io_trans : forall a b c, io_kept a b -> io_kept b c -> io_kept a c.
Proof.
  intros a b c ((t & H1) & (l & H2) & H3) ((u & K1) & (k & K2) & K3). split; [exists (t ++ u); rewrite K1, H1, app_assoc; reflexivity|].
  split; [exists (l ++ k); rewrite H2, K2, app_assoc; reflexivity|congruence].
Qed.
Lemma io_same : forall st st', st_out st' = st_out st -> st_in st' = st_in st -> st_env st' = st_env st -> io_kept st st'.
Proof. intros st st' H K E. unfold io_kept. rewrite H, K, E. apply io_refl. Qed.
Lemma io_mod_scope : forall s f, rel io_kept (mod_scope s f).
Proof. intros s f st. unfold mod_scope, bind, reads. destruct (get_scope s st); apply io_same; reflexivity. Qed.
Lemma io_write : forall t, rel io_kept (write_out t).
Proof. intros t st. split; [exists t; reflexivity|]. split; [exists []; reflexivity|reflexivity]. Qed.
Lemma io_read : rel io_kept read_line.
Proof.
  intros st. unfold read_line. destruct (st_in st) as [|l ls] eqn:E; [apply io_refl|].
  split; [exists []; cbn; rewrite app_nil_r; reflexivity|]. split; [exists [l]; cbn; exact E|reflexivity].
Qed.
Lemma io_script : forall n tr oe c m st, io_kept st (snd (eval_script n tr oe c m st)).
Proof.
  intros. apply rel_eval_script; auto using io_refl, io_mod_scope, io_write, io_read; try (intros; intro; apply io_same; reflexivity).
  exact io_trans.
Qed.
Lemma io_save : forall n v tr oe c m st, io_kept st (snd (save_eval n v tr oe c m st)).
Proof.
  intros. apply rel_save_eval; auto using io_refl, io_mod_scope, io_write, io_read; try (intros; intro; apply io_same; reflexivity).
  exact io_trans.
Qed.
Lemma io_run : forall n, rel_recs io_kept (run n).
Proof.
  intros. apply rel_run; auto using io_refl, io_mod_scope, io_write, io_read; try (intros; intro; apply io_same; reflexivity).
  exact io_trans.
Qed.
Lemma io_runs : forall tr oe c m st o st', runs tr oe c m st o st' -> io_kept st st'.
Proof. intros tr oe c m st o st' (n & H & _). pose proof (io_script n tr oe c m st) as K. rewrite H in K. exact K. Qed.
Lemma io_saves : forall v tr oe c m st o st', saves v tr oe c m st o st' -> io_kept st st'.
Proof. intros v tr oe c m st o st' (n & H & _). pose proof (io_save n v tr oe c m st) as K. rewrite H in K. exact K. Qed.
Lemma io_evals : forall p s st o st', evals p s st o st' -> io_kept st st'.
Proof. intros p s st o st' (n & H & _). pose proof (rr_eval _ _ (io_run n) p s st) as K. rewrite H in K. exact K. Qed.
Lemma io_calls : forall f a s st o st', calls f a s st o st' -> io_kept st st'.
Proof. intros f a s st o st' (n & H & _). pose proof (rr_call _ _ (io_run n) f a s st) as K. rewrite H in K. exact K. Qed.

(** ** The call stack *)
Lemma reachable_numbered : forall st, reachable st -> numbered st.
Proof.
  intros st R s sc E. destruct (reachable_ok st R) as [K _]. apply (ok_scope_at st s sc K E).
Qed.
Lemma frame_post : forall A s st (r : out A * state), post s st r -> forall t sc, scope_at st t = Some sc ->
  exists sc', scope_at (snd r) t = Some sc' /\ s_name sc' = s_name sc /\ s_global sc' = s_global sc /\
    s_closure sc' = s_closure sc /\ s_prev sc' = s_prev sc /\
    (t <> s -> exists v, sc' = set_vars v sc) /\
    (is_val (fst r) = true -> s_needlv sc' = s_needlv sc /\ (s_next sc = None -> s_next sc' = None)).
Proof.
  intros A s st r (_ & W & S) t sc E. destruct (W t sc E) as (sc' & E' & Q). exists sc'. split; [exact E'|].
  unfold K_of in Q. destruct (Pos.eqb_spec t s) as [->|N].
  - destruct Q as (Q1 & Q2 & Q3 & Q4). repeat (match goal with |- _ /\ _ => split end); auto; [congruence|].
    intro V. destruct (S V s sc E) as (sc2 & E2 & Q). unfold K_of in Q. rewrite Pos.eqb_refl in Q.
    assert (sc2 = sc') by (unfold scope_at in E'; congruence). subst sc2. destruct Q as (_ & Q5 & Q6). auto.
  - destruct Q as [v ->]. cbn. repeat (match goal with |- _ /\ _ => split end); auto. intros _. exists v. reflexivity.
Qed.
Lemma frame_evals : forall p s st o st', numbered st -> evals p s st o st' -> forall t sc, scope_at st t = Some sc ->
  exists sc', scope_at st' t = Some sc' /\ s_name sc' = s_name sc /\ s_global sc' = s_global sc /\
    s_closure sc' = s_closure sc /\ s_prev sc' = s_prev sc /\
    (t <> s -> exists v, sc' = set_vars v sc) /\
    (is_val o = true -> s_needlv sc' = s_needlv sc /\ (s_next sc = None -> s_next sc' = None)).
Proof.
  intros p s st o st' N (n & H & _) t sc E. pose proof (fr_eval _ (frm_run n) p s st N) as K. rewrite H in K.
  exact (frame_post _ s st (o, st') K t sc E).
Qed.
Lemma frame_calls : forall f a s st o st', numbered st -> calls f a s st o st' -> forall t sc, scope_at st t = Some sc ->
  exists sc', scope_at st' t = Some sc' /\ s_name sc' = s_name sc /\ s_global sc' = s_global sc /\
    s_closure sc' = s_closure sc /\ s_prev sc' = s_prev sc /\
    (t <> s -> exists v, sc' = set_vars v sc) /\
    (is_val o = true -> s_needlv sc' = s_needlv sc /\ (s_next sc = None -> s_next sc' = None)).
Proof.
  intros f a s st o st' N (n & H & _) t sc E. pose proof (fr_call _ (frm_run n) f a s st N) as K. rewrite H in K.
  exact (frame_post _ s st (o, st') K t sc E).
Qed.
