(** What a piece of code can reach: proofs. *)
Require Import String Ascii List ZArith Bool Lia.
Require Import PArith FMapPositive.
From Verif Require Import Base CppString Num Token Tokenizer Parser Value State Show ScopeOps Builtins Table Eval LispTop
  Wf WfRead WfProofs SpecRun SpecVal SpecForm RunProofs ErrProofs SpecReach.
Import ListNotations.

Definition privn {T : Priv} (n : node) : Prop := match n with NScope s => privs s | NList l => privv l | NDict l => privd l end.
Definition node_ok {T : Priv} (w : state) (n : node) : Prop := exists_in w n /\ ~ privn n.

Lemma part_ok {T : Priv} : forall w o q, part o q -> ok_obj w o -> ok_obj w q.
Proof.
  intros w o q H. induction H as [o|t o u k q H IH|n m args s sg d bi sp ex md i o q I1 H IH|r fs bs i o q I1 H IH|r fs bs i o q I1 H IH|lv i o q E H IH];
    intro K; auto; apply IH; cbn in K.
  - apply K.
  - destruct K as [K _]. rewrite all_in in K. exact (K _ I1).
  - destruct K as [K _]. rewrite all_in in K. exact (K _ I1).
  - destruct K as [_ K]. rewrite all_in in K. exact (K _ I1).
  - destruct lv; cbn in E; subst; exact K.
Qed.
Lemma tag_kind : forall t o, tag_ok t o <-> kind_fits t o.
Proof. intros t o. destruct t, o; cbn; tauto. Qed.
Lemma ok_shaped {T : Priv} : forall w o, ok_obj w o -> shaped o.
Proof.
  intros w o H. destruct o; cbn in *; auto.
  - apply in_int_range in H. unfold int_min, int_max in H. lia.
  - destruct v as [t [o|] u k]; cbn in *; [|exact H]. apply tag_kind. apply H.
Qed.
Lemma ok_refers {T : Priv} : forall w o n, refers o n -> ok_obj w o -> node_ok w n.
Proof. intros w o n H K. destruct H; cbn in K; try exact K. apply K. Qed.
Lemma ok_parts {T : Priv} : forall w o, ok_obj w o -> (forall q, part o q -> shaped q) /\ (forall n, names o n -> node_ok w n).
Proof.
  intros w o K. split.
  - intros q H. eapply ok_shaped. eapply part_ok; eauto.
  - intros n (q & H1 & H2). eapply ok_refers; eauto. eapply part_ok; eauto.
Qed.
Lemma parts_ok {T : Priv} : forall w o, (forall q, part o q -> shaped q) -> (forall n, names o n -> node_ok w n) -> ok_obj w o.
Proof.
  intros w. fix IH 1. intros o H1 H2. destruct o as [ |b|z|x|t|l|l|f|lv|s|r fs bs|v]; cbn [ok_obj]; auto.
  - apply in_int_range. pose proof (H1 _ (part_self _)) as S. cbn in S. unfold int_min, int_max. lia.
  - apply (H2 (NList l)). exists (OList l). split; [apply part_self|constructor].
  - apply (H2 (NDict l)). exists (ODict l). split; [apply part_self|constructor].
  - destruct f as [c sg d bi sp ex md]. cbn [ok_fn]. destruct c as [b|n m args s]; cbn [ok_code]; [exact I|]. split.
    + assert (A : forall i o, In (P i o) args -> (forall q, part o q -> shaped q) /\ (forall n, names o n -> node_ok w n)).
      { intros i o HI. split.
        - intros q Hq. apply H1. eapply part_code; eauto.
        - intros x (q & Q1 & Q2). apply H2. exists q. split; [eapply part_code; eauto|exact Q2]. }
      clear H1 H2. revert args A. fix IHl 1. intros [|p ps] A; [exact I|]. split.
      * destruct p as [|i o]; [exact I|]. cbn [ok_ptr]. destruct (A i o (or_introl eq_refl)) as [A1 A2]. exact (IH o A1 A2).
      * apply IHl. intros i o HI. apply (A i o). right. exact HI.
    + apply (H2 (NScope s)). eexists. split; [apply part_self|constructor].
  - assert (A : forall i o, place_of lv = P i o -> (forall q, part o q -> shaped q) /\ (forall n, names o n -> node_ok w n)).
    { intros i o HI. split.
      - intros q Hq. apply H1. eapply part_place; eauto.
      - intros x (q & Q1 & Q2). apply H2. exists q. split; [eapply part_place; eauto|exact Q2]. }
    destruct lv as [p|p|p z]; cbn [ok_lval place_of] in *; (destruct p as [|i o]; [exact I|]); cbn [ok_ptr]; destruct (A i o eq_refl) as [A1 A2]; exact (IH o A1 A2).
  - apply (H2 (NScope s)). eexists. split; [apply part_self|constructor].
  - split.
    + assert (A : forall i o, In (P i o) fs -> (forall q, part o q -> shaped q) /\ (forall n, names o n -> node_ok w n)).
      { intros i o HI. split.
        - intros q Hq. apply H1. eapply part_formal; eauto.
        - intros x (q & Q1 & Q2). apply H2. exists q. split; [eapply part_formal; eauto|exact Q2]. }
      clear H1 H2. revert fs A. fix IHl 1. intros [|p ps] A; [exact I|]. split.
      * destruct p as [|i o]; [exact I|]. cbn [ok_ptr]. destruct (A i o (or_introl eq_refl)) as [A1 A2]. exact (IH o A1 A2).
      * apply IHl. intros i o HI. apply (A i o). right. exact HI.
    + assert (A : forall i o, In (P i o) bs -> (forall q, part o q -> shaped q) /\ (forall n, names o n -> node_ok w n)).
      { intros i o HI. split.
        - intros q Hq. apply H1. eapply part_body; eauto.
        - intros x (q & Q1 & Q2). apply H2. exists q. split; [eapply part_body; eauto|exact Q2]. }
      clear H1 H2. revert bs A. fix IHl 1. intros [|p ps] A; [exact I|]. split.
      * destruct p as [|i o]; [exact I|]. cbn [ok_ptr]. destruct (A i o (or_introl eq_refl)) as [A1 A2]. exact (IH o A1 A2).
      * apply IHl. intros i o HI. apply (A i o). right. exact HI.
  - destruct v as [t [o|] u k]; cbn [ok_var].
    + split.
      * apply tag_kind. exact (H1 _ (part_self _)).
      * apply IH.
        { intros q Hq. apply H1. apply part_var. exact Hq. }
        { intros x (q & Q1 & Q2). apply H2. exists q. split; [apply part_var; exact Q1|exact Q2]. }
    + exact (H1 _ (part_self _)).
Qed.

(** ** Sound states *)
Lemma increasing_sorted : forall vs, increasing vs <-> keys_sorted vs.
Proof. induction vs as [|[k p] vs IH]; cbn; [tauto|]. rewrite IH, all_in. tauto. Qed.
Lemma valid_node_ok {T : Priv} : forall w o, valid w o -> (forall n, names o n -> ~ privn n) -> ok_obj w o.
Proof. intros w o [V1 V2] H. apply parts_ok; auto. intros n N. split; auto. Qed.
Lemma sound_ok {T : Priv} : forall st, sound st -> closed_off st privn -> ok st.
Proof.
  intros st S [C1 C2]. constructor.
  - intros l es F. split; [apply (so_lists _ S); cbn; unfold vec_at; congruence|]. intro N. rewrite all_in. intros [|i o] I1; [exact I|]. cbn [ok_ptr].
    assert (H : holds_obj st (NList l) o) by (exists es, i; auto).
    apply valid_node_ok; [exact (so_values _ S _ _ H)|]. intros n Nn. apply (C2 (NList l)); [cbn; unfold vec_at; congruence|exact N|]. econstructor; eauto.
  - intros l d F. split; [apply (so_dicts _ S); cbn; unfold dict_at; congruence|]. intro N. unfold dict_ok. rewrite all_in. intros [key val] I1. cbn [fst snd].
    assert (X : forall o, (o = OVar key \/ val = Some o) -> ok_obj st o).
    { intros o Ho. assert (H : holds_obj st (NDict l) o) by (exists d, key, val; auto).
      apply valid_node_ok; [exact (so_values _ S _ _ H)|]. intros n Nn. apply (C2 (NDict l)); [cbn; unfold dict_at; congruence|exact N|]. econstructor; eauto. }
    split; [exact (X (OVar key) (or_introl eq_refl))|]. destruct val as [o|]; [|exact I]. apply X. auto.
  - intros s sc F. assert (L : ok_links st s sc).
    { constructor; intros c Ec; [exact (so_prev _ S s sc c F Ec)|exact (so_next _ S s sc c F Ec)]. }
    assert (Ex : exists_in st (NScope s)) by (cbn; unfold scope_at; congruence).
    split; [exact (so_scopes _ S s Ex)|]. split; [exact L|]. intro N. constructor.
    + unfold vars_ok. rewrite all_in. intros [k [|i o]] I1; [exact I|]. cbn [snd ok_ptr].
      assert (H : holds_obj st (NScope s) o) by (exists sc, k, i; auto).
      apply valid_node_ok; [exact (so_values _ S _ _ H)|]. intros n Nn. apply (C2 (NScope s)); [exact Ex|exact N|]. econstructor; eauto.
    + apply increasing_sorted. exact (so_sorted _ S s sc F).
    + split; [exact (so_global _ S s sc F)|]. apply (C2 (NScope s) (NScope (s_global sc)) Ex N). eapply linked_global; exact F.
    + intros c Ec. destruct (so_closure _ S s sc c F Ec) as [X1 X2]. split; [|exact X2]. split; [exact X1|].
      apply (C2 (NScope s) (NScope c) Ex N). eapply linked_closure; eauto.
    + exact L.
  - intros s P. apply (so_scopes _ S). exact (C1 (NScope s) P).
  - intros l P. apply (so_lists _ S). exact (C1 (NList l) P).
  - intros l P. apply (so_dicts _ S). exact (C1 (NDict l) P).
Qed.
Lemma ok_holds {T : Priv} : forall st n o, ok st -> ~ privn n -> holds_obj st n o -> ok_obj st o.
Proof.
  intros st n o K N H. destruct n as [s|l|l]; cbn in *.
  - destruct H as (sc & k & i & F & I1). apply K in F. destruct F as (_ & _ & F). specialize (F N). pose proof (os_vars _ _ _ F) as V.
    unfold vars_ok in V. rewrite all_in in V. exact (V _ I1).
  - destruct H as (es & i & F & I1). apply K in F. destruct F as (_ & F). specialize (F N). rewrite all_in in F. exact (F _ I1).
  - destruct H as (d & key & val & F & I1 & [->| ->]); apply K in F; destruct F as (_ & F); specialize (F N); unfold dict_ok in F; rewrite all_in in F; specialize (F _ I1); cbn in F; apply F.
Qed.
Lemma ok_closed {T : Priv} : forall st n n', ok st -> ~ privn n -> linked st n n' -> node_ok st n'.
Proof.
  intros st n n' K N L. destruct L as [n o n' H Nm|s sc c F Ec|s sc F].
  - apply (ok_parts st o); [|exact Nm]. eapply ok_holds; eauto.
  - apply K in F. destruct F as (_ & _ & F). specialize (F N). apply (os_closure _ _ _ F c Ec).
  - apply K in F. destruct F as (_ & _ & F). specialize (F N). apply (os_global _ _ _ F).
Qed.
Lemma ok_sound : forall st, ok st -> sound st.
Proof.
  intros st K. assert (NP : forall n, ~ privn n) by (intros [s|l|l] []). constructor.
  - intros n o H. destruct (ok_parts st o (ok_holds st n o K (NP n) H)) as [P1 P2]. split; [exact P1|]. intros x Nx. apply P2. exact Nx.
  - intros s sc F. destruct (ok_scope_at st s sc K F) as [_ O]. apply (os_global _ _ _ O).
  - intros s sc c F Ec. destruct (ok_scope_at st s sc K F) as [_ O]. destruct (os_closure _ _ _ O c Ec) as [X1 X2]. split; [apply X1|exact X2].
  - intros s sc c F Ec. destruct (ok_scope_at st s sc K F) as [_ O]. exact (ol_prev _ _ _ (os_links _ _ _ O) c Ec).
  - intros s sc c F Ec. destruct (ok_scope_at st s sc K F) as [_ O]. exact (ol_next _ _ _ (os_links _ _ _ O) c Ec).
  - intros s sc F. destruct (ok_scope_at st s sc K F) as [_ O]. apply increasing_sorted. apply O.
  - intros s H. cbn in H. destruct (scope_at st s) as [sc|] eqn:F; [|congruence]. apply K in F. apply F.
  - intros s H. cbn in H. destruct (vec_at st s) as [sc|] eqn:F; [|congruence]. apply K in F. apply F.
  - intros s H. cbn in H. destruct (dict_at st s) as [sc|] eqn:F; [|congruence]. apply K in F. apply F.
Qed.
Lemma none_closed : forall st, closed_off st (@privn no_priv).
Proof. intro st. split; [intros [s|l|l] []|intros n [s|l|l] _ _ _ []]. Qed.
Lemma sound_plain : forall st, sound st -> ok st.
Proof. intros st S. apply sound_ok; [exact S|apply none_closed]. Qed.
Lemma reachable_sound : forall st, reachable st -> sound st /\ exists_in st (NScope main_sid).
Proof. intros st R. destruct (reachable_ok st R) as [K S]. split; [apply ok_sound; exact K|apply S]. Qed.

(** ** Evaluation with some nodes set aside *)
Definition aside (S : node -> Prop) : Priv := {| privs := fun s => S (NScope s); privv := fun l => S (NList l); privd := fun l => S (NDict l) |}.
Lemma aside_privn : forall S n, @privn (aside S) n <-> S n.
Proof. intros S [s|l|l]; cbn; tauto. Qed.
Lemma aside_closed : forall st S, closed_off st S -> closed_off st (@privn (aside S)).
Proof.
  intros st S [C1 C2]. split.
  - intros n H. apply C1. exact (proj1 (aside_privn S n) H).
  - intros n n' E N L H. exact (C2 n n' E (fun x => N (proj2 (aside_privn S n) x)) L (proj1 (aside_privn S n') H)).
Qed.
Lemma ext_exists {T : Priv} : forall w w' n, ext w w' -> exists_in w n -> exists_in w' n.
Proof. intros w w' [s|l|l] E H; [exact (ext_any _ _ E s H)|exact (ext_vec_any _ _ E l H)|exact (ext_dict_any _ _ E l H)]. Qed.
Lemma ext_same_contents {T : Priv} : forall w w' n, ext w w' -> exists_in w n -> privn n -> same_contents w w' n.
Proof.
  intros w w' [s|l|l] E H P; cbn in *.
  - destruct (scope_at w s) as [sc|] eqn:F; [|congruence]. destruct (ext_global _ _ E s sc F) as (sc' & F' & _ & V). exists sc, sc'. auto.
  - exact (ext_privv _ _ E l P).
  - exact (ext_privd _ _ E l P).
Qed.
Lemma aside_result : forall st S (m : M result),
  sound st -> closed_off st S -> (@okm no_priv _ st m okres) -> (@okm (aside S) _ st m (oopt (@ok_var (aside S)))) -> kept_aside st S (fst (m st)) (snd (m st)).
Proof.
  intros st S m So Cl M1 M2.
  pose proof (sound_plain st So) as K1. destruct (M1 st (ext_refl _) K1) as (_ & K1' & _).
  pose proof (@sound_ok (aside S) st So (aside_closed st S Cl)) as K2. destruct (M2 st (@ext_refl (aside S) _) K2) as (E2 & K2' & O2).
  split; [apply ok_sound; exact K1'|]. split; [|split; [|split]].
  - split.
    + intros n Hn. apply (@ext_exists (aside S) _ _ _ E2). apply Cl. exact Hn.
    + intros n n' Ex N L Hn. assert (N' : ~ @privn (aside S) n) by (exact (fun x => N (proj1 (aside_privn S n) x))).
      destruct (@ok_closed (aside S) _ n n' K2' N' L) as [_ X]. exact (X (proj2 (aside_privn S n') Hn)).
  - intros n Hn. apply (@ext_same_contents (aside S)); [exact E2|apply Cl; exact Hn|exact (proj2 (aside_privn S n) Hn)].
  - intros n. apply (@ext_exists (aside S)). exact E2.
  - intros n (v & Ev & Nv). rewrite Ev in O2. cbn in O2. destruct (@ok_parts (aside S) _ (OVar v) O2) as [_ X]. destruct (X n Nv) as [X1 X2].
    split; [exact X1|]. intro Hn. exact (X2 (proj2 (aside_privn S n) Hn)).
Qed.
Lemma valid_ok : forall T st o, valid st o -> (forall n, names o n -> ~ @privn T n) -> @ok_obj T st o.
Proof. intros T st o V N. apply valid_node_ok; auto. Qed.
Lemma ptr_valid_ok : forall T st p, ptr_valid st p -> (forall n, ptr_names p n -> ~ @privn T n) -> @ok_ptr T st p.
Proof. intros T st [|i o] V N; [exact I|]. apply valid_ok; auto. Qed.
Lemma none_priv : forall n, ~ @privn no_priv n.
Proof. intros [s|l|l] []. Qed.

Lemma aside_eval : forall st S p s o st', sound st -> closed_off st S -> exists_in st (NScope s) -> ~ S (NScope s) ->
  ptr_valid st p -> (forall n, ptr_names p n -> ~ S n) -> evals p s st o st' -> kept_aside st S o st'.
Proof.
  intros st S p s o st' So Cl Ex Ns V N (k & E & _).
  pose proof (aside_result st S (r_eval (run k) p s) So Cl) as A. rewrite E in A. cbn [fst snd] in A. apply A.
  - apply or_eval; [apply ok_run| |split; [exact Ex|exact (fun x => x)]]. apply ptr_valid_ok; [exact V|]. intros n _. apply none_priv.
  - apply (@or_eval (aside S)); [apply ok_run| |split; [exact Ex|exact Ns]]. apply ptr_valid_ok; [exact V|]. intros n Hn X. exact (N n Hn (proj1 (aside_privn S n) X)).
Qed.
Lemma aside_call : forall st S f args ls sc o st', sound st -> closed_off st S -> closure_fn f ->
  scope_at st ls = Some sc -> ~ S (NScope (s_global sc)) ->
  valid st (OFun f) -> (forall n, names (OFun f) n -> ~ S n) ->
  (forall p, In p args -> ptr_valid st p /\ forall n, ptr_names p n -> ~ S n) -> calls f args ls st o st' -> kept_aside st S o st'.
Proof.
  intros st S f args ls sc o st' So Cl Cf F Ng V N A (k & E & NF).
  destruct k as [|k]; [injection E as <- _; congruence|].
  assert (E' : call (run k) f args ls st = (o, st')) by exact E.
  pose proof (aside_result st S (call (run k) f args ls) So Cl) as Res. rewrite E' in Res. cbn [fst snd] in Res.
  destruct f as [c sg d bi sp ex md]. destruct c as [b|nm m fa ds]; [destruct Cf|].
  assert (G : forall T : Priv, (~ @privs T (s_global sc)) -> (forall n, names (OFun (MkFn (CClosure nm m fa ds) sg d bi sp ex md)) n -> ~ @privn T n) ->
            (forall p, In p args -> forall n, ptr_names p n -> ~ @privn T n) -> @okm T _ st (call (run k) (MkFn (CClosure nm m fa ds) sg d bi sp ex md) args ls) (oopt (@ok_var T))).
  { intros T H1 H2 H3. unfold call. cbn [fn_code]. pose proof (valid_ok T st _ V H2) as OK. cbn in OK. destruct OK as [OK1 OK2].
    apply okm_call_closure; [apply ok_run|exact OK1|exact OK2| |].
    - rewrite all_in. intros p Hp. apply ptr_valid_ok; [apply A; exact Hp|]. apply H3. exact Hp.
    - exists sc. split; [exact F|]. split; [exact (so_global _ So ls sc F)|exact H1]. }
  apply Res.
  - apply G; [exact (fun x => x)|intros n _; apply none_priv|intros p _ n _; apply none_priv].
  - apply G; [exact Ng|intros n Hn X; exact (N n Hn (proj1 (aside_privn S n) X))|intros p Hp n Hn X; exact (proj2 (A p Hp) n Hn (proj1 (aside_privn S n) X))].
Qed.

(** ** What can be reached *)
Lemma out_of_reach : forall st (roots : node -> Prop), sound st -> (forall n, roots n -> exists_in st n) ->
  closed_off st (fun n => exists_in st n /\ ~ reaches st roots n).
Proof.
  intros st roots So R. split; [intros n [H _]; exact H|]. intros n n' Ex N L [H1 H2]. apply N. split; [exact Ex|]. intro H.
  apply H2. eapply reaches_link; eauto.
Qed.
Lemma linked_exists : forall st n n', sound st -> linked st n n' -> exists_in st n'.
Proof. intros st n n' So L. destruct (ok_closed st n n' (sound_plain st So) (none_priv n) L) as [X _]. exact X. Qed.
Lemma aside_confined : forall st (roots : node -> Prop) o st', sound st -> (forall n, roots n -> exists_in st n) ->
  kept_aside st (fun n => exists_in st n /\ ~ reaches st roots n) o st' -> confined st roots o st'.
Proof.
  intros st roots o st' So R (So' & Cl & Same & Keep & Res). split; [exact So'|]. split; [exact Keep|]. intros n Ex N. split; [apply Same; auto|].
  assert (X : forall x, reaches st' (fun x => roots x \/ roots_result o x) x -> exists_in st' x /\ ~ (exists_in st x /\ ~ reaches st roots x)).
  { intros x H. induction H as [x [H|H]|x y H [E1 IH] L].
    - split; [apply Keep; apply R; exact H|]. intros [_ B]. apply B. apply reaches_root. exact H.
    - destruct (Res x H). auto.
    - split; [eapply linked_exists; eauto|]. exact (proj2 Cl x y E1 IH L). }
  intro H. destruct (X n H) as [_ B]. apply B. auto.
Qed.
Lemma eval_confined : forall st p s o st', sound st -> exists_in st (NScope s) -> ptr_valid st p -> evals p s st o st' ->
  confined st (roots_eval p s) o st'.
Proof.
  intros st p s o st' So Ex V E.
  assert (R : forall n, roots_eval p s n -> exists_in st n).
  { intros n [->|H]; [exact Ex|]. destruct p as [|i q]; [destruct H|]. destruct V as [_ V]. apply V. exact H. }
  apply aside_confined; [exact So|exact R|]. eapply aside_eval; eauto.
  - apply out_of_reach; auto.
  - intros [_ B]. apply B. apply reaches_root. left. reflexivity.
  - intros n Hn [_ B]. apply B. apply reaches_root. right. exact Hn.
Qed.
Lemma call_confined : forall st f args ls sc o st', sound st -> closure_fn f -> scope_at st ls = Some sc ->
  valid st (OFun f) -> (forall p, In p args -> ptr_valid st p) -> calls f args ls st o st' -> confined st (roots_call f args (s_global sc)) o st'.
Proof.
  intros st f args ls sc o st' So Cf F V A E.
  assert (R : forall n, roots_call f args (s_global sc) n -> exists_in st n).
  { intros n [->|[H|(p & Hp & H)]].
    - exact (so_global _ So ls sc F).
    - apply V. exact H.
    - specialize (A p Hp). destruct p as [|i q]; [destruct H|]. destruct A as [_ A]. apply A. exact H. }
  apply aside_confined; [exact So|exact R|]. eapply aside_call; eauto.
  - apply out_of_reach; auto.
  - intros [_ B]. apply B. apply reaches_root. left. reflexivity.
  - intros n Hn [_ B]. apply B. apply reaches_root. right. left. exact Hn.
  - intros p Hp. split; [apply A; exact Hp|]. intros n Hn [_ B]. apply B. apply reaches_root. right. right. exists p. auto.
Qed.

(** Sound states and valid code: no dangling reference, endless scope chain or value of the wrong kind. *)
Lemma eval_healthy : forall st p s o st', sound st -> exists_in st (NScope s) -> ptr_valid st p -> evals p s st o st' -> healthy o.
Proof.
  intros st p s o st' So Ex V (k & E & _).
  assert (M1 : okm st (r_eval (run k) p s) okres).
  { apply or_eval; [apply ok_run| |split; [exact Ex|exact (fun x => x)]]. apply ptr_valid_ok; [exact V|]. intros n _. apply none_priv. }
  pose proof (okm_healthy _ st _ _ M1 (sound_plain st So)) as H. rewrite E in H. exact H.
Qed.

(** A new scope: nothing refers to it. *)
Lemma new_scope_off : forall st sc, sound st ->
  (forall k i o, In (k, P i o) (s_vars sc) -> valid st o) -> increasing (s_vars sc) -> exists_in st (NScope (s_global sc)) ->
  s_closure sc = None -> s_prev sc = None -> s_next sc = None ->
  sound (snd (alloc_scope sc st)) /\ closed_off (snd (alloc_scope sc st)) (eq (NScope (st_nsid st))) /\ scope_at (snd (alloc_scope sc st)) (st_nsid st) = Some sc.
Proof.
  intros st sc So V Inc G C1 C2 C3. pose proof (sound_plain st So) as K.
  assert (At : scope_at (snd (alloc_scope sc st)) (st_nsid st) = Some sc) by (unfold scope_at; cbn; apply PositiveMap.gss).
  assert (S' : sound (snd (alloc_scope sc st))).
  { apply ok_sound. eapply (okm_alloc_scope st sc); [|apply ext_refl|exact K]. intros s _. constructor.
    - unfold vars_ok. rewrite all_in. intros [k [|i o]] I1; [exact I|]. cbn [snd ok_ptr]. apply valid_ok; [eapply V; eauto|]. intros n _. apply none_priv.
    - apply increasing_sorted. exact Inc.
    - split; [exact G|exact (fun x => x)].
    - rewrite C1. discriminate.
    - constructor; [rewrite C2|rewrite C3]; discriminate. }
  split; [exact S'|]. split; [|exact At]. split; [intros n <-; unfold exists_in; rewrite At; discriminate|].
  intros n n' Ex N L <-.
  assert (Old : ~ exists_in st (NScope (st_nsid st))) by (intro X; apply (so_scopes _ So) in X; lia).
  assert (L' : linked st n (NScope (st_nsid st))).
  { inversion L as [x o y H Nm|s sc' c F Ec|s sc' F]; subst.
    - apply linked_holds with (o := o); [|exact Nm]. destruct n as [s|l|l]; cbn in H |- *; try exact H.
      destruct H as (sc' & k & i & F & I1). unfold scope_at in F. cbn in F. rewrite find_add in F. destruct Pos.eq_dec as [<-|D]; [congruence|]. exists sc', k, i. auto.
    - unfold scope_at in F. cbn in F. rewrite find_add in F. destruct Pos.eq_dec as [<-|D]; [congruence|]. eapply linked_closure; eauto.
    - unfold scope_at in F. cbn in F. rewrite find_add in F. destruct Pos.eq_dec as [<-|D]; [congruence|].
      exact (linked_global st s sc' F). }
  apply Old. eapply linked_exists; eauto.
Qed.

(** The local variables of the caller. *)
Lemma locals_kept : forall st f args ls sc o st', sound st -> closed_off st (eq (NScope ls)) -> closure_fn f ->
  scope_at st ls = Some sc -> s_global sc <> ls -> valid st (OFun f) -> ~ names (OFun f) (NScope ls) ->
  (forall p, In p args -> ptr_valid st p /\ ~ ptr_names p (NScope ls)) -> calls f args ls st o st' ->
  (forall n, var_at st' ls n = var_at st ls n) /\ sound st' /\ closed_off st' (eq (NScope ls)) /\ ~ roots_result o (NScope ls).
Proof.
  intros st f args ls sc o st' So Cl Cf F G V N A E.
  destruct (aside_call st (eq (NScope ls)) f args ls sc o st' So Cl Cf F) as (S' & C' & Same & _ & Res); auto.
  - congruence.
  - intros n H <-. exact (N H).
  - intros p Hp. destruct (A p Hp) as [A1 A2]. split; [exact A1|]. intros n H <-. exact (A2 H).
  - split; [|split; [exact S'|split; [exact C'|]]].
    + intro n. destruct (Same _ eq_refl) as (sc1 & sc2 & F1 & F2 & Ev). unfold var_at. rewrite F1, F2, Ev. reflexivity.
    + intro H. destruct (Res _ H) as [_ X]. apply X. reflexivity.
Qed.

(** ** Witnesses *)
Lemma local_changed : exists v st', runs false false $"(defn f () (do (def x 1) (def h (lambda () (setf x 2))) (h) (+ x 0))) (f)" [] fresh (Val (Some v)) st' /\ is_int v 2.
Proof. eexists. eexists. split; [apply (runs_by 60); [vm_compute; reflexivity|discriminate]|]. split; reflexivity. Qed.
Lemma list_changed : exists v st', runs false false $"(defn g (l) (push 9 l)) (defn f () (do (def l (list 1)) (g l) (str l))) (f)" [] fresh (Val (Some v)) st' /\ is_str v $"(9 1)".
Proof. eexists. eexists. split; [apply (runs_by 60); [vm_compute; reflexivity|discriminate]|]. split; reflexivity. Qed.

Definition defd_st : state := snd (eval_script 40 false false $"(defn f (x) (+ x 1))" [] fresh).
Definition local_scope : scope := set_vars [($"n", P 1 (OVar (mkv TInt (OInt 7))))] (fresh_scope $"g" main_sid [] []).
Definition aside_st : state := snd (alloc_scope local_scope defd_st).
Definition defd_fn : fnval := match var_at defd_st main_sid $"f" with Some (P _ (OVar v)) => match v_val v with Some (OFun f) => f | _ => MkFn (CBuiltin BDo) [] [] false false false [] end | _ => MkFn (CBuiltin BDo) [] [] false false false [] end.
Lemma defd_sound : sound defd_st.
Proof. apply reachable_sound. apply reach_eval. apply reach_init. Qed.
Lemma valid_more : forall st st' o, valid st o -> (forall n, exists_in st n -> exists_in st' n) -> valid st' o.
Proof. intros st st' o [V1 V2] H. split; auto. Qed.
Lemma valid_lone : forall st t o u k, shaped (OVar (MkVar t (Some o) u k)) -> (forall q, part o q -> shaped q) -> (forall n, ~ names o n) -> valid st (OVar (MkVar t (Some o) u k)).
Proof.
  intros st t o u k S P N. split.
  - intros q H. inversion H; subst; auto.
  - intros n (q & H & R). inversion H; subst; [inversion R|]. destruct (N n). exists q. auto.
Qed.
Lemma valid_int : forall st z, (-2147483648 <= z <= 2147483647)%Z -> valid st (OVar (mkv TInt (OInt z))).
Proof.
  intros st z H. apply valid_lone; [exact I| |].
  - intros q Q. inversion Q; subst. exact H.
  - intros n (q & Q & R). inversion Q; subst. inversion R.
Qed.
Lemma alloc_keeps : forall sc st n, exists_in st n -> exists_in (snd (alloc_scope sc st)) n.
Proof.
  intros sc st [s|l|l] H; [|exact H|exact H]. cbn [exists_in] in *. unfold scope_at in *. cbn. rewrite find_add. destruct Pos.eq_dec; [discriminate|exact H].
Qed.
Lemma local_ready : forall st, sound st -> exists_in st (NScope main_sid) ->
  sound (snd (alloc_scope local_scope st)) /\ closed_off (snd (alloc_scope local_scope st)) (eq (NScope (st_nsid st))) /\ scope_at (snd (alloc_scope local_scope st)) (st_nsid st) = Some local_scope.
Proof.
  intros st So M. apply new_scope_off; try reflexivity; auto.
  - intros k i o [E|[]]. injection E as <- <- <-. apply valid_int. lia.
  - cbn. split; [intros kv []|exact I].
Qed.
Lemma defd_main : exists_in defd_st (NScope main_sid).
Proof. apply reachable_sound. apply reach_eval. apply reach_init. Qed.
Lemma aside_ready : sound aside_st /\ closed_off aside_st (eq (NScope (st_nsid defd_st))) /\ scope_at aside_st (st_nsid defd_st) = Some local_scope.
Proof. exact (local_ready defd_st defd_sound defd_main). Qed.
Lemma lookup_held : forall n vs p, lookup n vs = Some p -> In (n, p) vs.
Proof.
  intros n vs p H. unfold lookup in H. match type of H with option_map snd ?x = _ => destruct x as [[k q]|] eqn:F end; [|discriminate]. cbn in H. injection H as ->.
  apply find_some in F. destruct F as [F1 F2]. cbn in F2. destruct (list_eq_dec ascii_dec n k) as [<-|]; [exact F1|discriminate].
Qed.
Lemma held_valid : forall st s n i t u k o, sound st -> var_at st s n = Some (P i (OVar (MkVar t (Some o) u k))) -> valid st o.
Proof.
  intros st s n i t u k o So H. unfold var_at in H. destruct (scope_at st s) as [sc|] eqn:F; [|discriminate]. apply lookup_held in H.
  assert (W : valid st (OVar (MkVar t (Some o) u k))) by (apply (so_values _ So (NScope s)); exists sc, n, i; auto).
  destruct W as [W1 W2]. split; [intros q Q; apply W1; apply part_var; exact Q|]. intros x (q & Q & R). apply W2. exists q. split; [apply part_var; exact Q|exact R].
Qed.
Lemma added_valid : forall st sc o, sound st -> valid st o -> valid (snd (alloc_scope sc st)) o /\ ~ names o (NScope (st_nsid st)).
Proof.
  intros st sc o So V.
  assert (X : ~ exists_in st (NScope (st_nsid st))) by (intro X; apply (so_scopes _ So) in X; lia).
  split; [|intro H; apply X; apply V; exact H].
  apply (valid_more st); [exact V|]. intros n H. exact (alloc_keeps sc st n H).
Qed.
Lemma defd_var : exists i u k, var_at defd_st main_sid $"f" = Some (P i (OVar (MkVar TFun (Some (OFun defd_fn)) u k))).
Proof. eexists _, _, _. vm_compute. reflexivity. Qed.
Lemma defd_valid : valid aside_st (OFun defd_fn) /\ ~ names (OFun defd_fn) (NScope (st_nsid defd_st)).
Proof.
  destruct defd_var as (i & u & k & H). exact (added_valid defd_st local_scope (OFun defd_fn) defd_sound (held_valid defd_st main_sid $"f" i TFun u k (OFun defd_fn) defd_sound H)).
Qed.
Lemma calls_by : forall n f args s st o, fst (r_call (run n) f args s st) = o -> o <> NoFuel -> calls f args s st o (snd (r_call (run n) f args s st)).
Proof. intros n f args s st o E N. exists n. rewrite <- E. split; [apply surjective_pairing|congruence]. Qed.
