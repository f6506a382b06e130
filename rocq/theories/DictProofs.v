(** Dictionary functions. *)
Require Import String Ascii List ZArith Bool Lia Sorted.
Require Import PArith FMapPositive.
From Verif Require Import Base CppString Num Token Value State Show ScopeOps Builtins Table Eval LispTop SpecRun SpecVal SpecNum SpecList SpecDict
  BuiltinProofs Wf RunProofs SpecLex ClassifyProofs TextProofs StrProofs NumProofs ErrProofs ListProofs.
Import ListNotations.

(** ** The order of keys *)
Definition kltb (a b : key) : bool :=
  match a, b with
  | KInt x, KInt y => (x <? y)%Z
  | KText x, KText y => match str_cmp x y with Lt => true | _ => false end
  | _, _ => false
  end.
Lemma kltb_lt : forall a b, kltb a b = true <-> key_lt a b.
Proof.
  intros [x|x] [y|y]; cbn; try (split; [discriminate|contradiction]).
  - apply Z.ltb_lt.
  - rewrite <- str_cmp_lt. destruct (str_cmp x y); split; congruence.
Qed.
Lemma v_lt_keys : forall kd v w a b st, key_of kd v a -> key_of kd w b -> v_lt v w st = Val (kltb a b).
Proof.
  intros [|] v w [a|a] [b|b] st; cbn [key_of]; try contradiction; intros Hv Hw.
  - exact (cmp_ints _ _ _ _ v w a b st Hv Hw).
  - destruct Hv as [Hv Na], Hw as [Hw Nb].
    assert (CE : CompareOrdinal a b = str_cmp a b) by (unfold CompareOrdinal; rewrite !cstr_id by assumption; reflexivity).
    etransitivity; [exact (cmp_strs _ _ _ _ v w a b st Hv Hw)|]. rewrite CE. reflexivity.
Qed.
Definition kkind (kd : kind) (k : key) : Prop := match kd, k with Ints, KInt _ | Texts, KText _ => True | _, _ => False end.
Lemma key_of_kind : forall kd v k, key_of kd v k -> kkind kd k.
Proof. intros [|] v [|]; cbn; auto. Qed.
Lemma key_irrefl : forall a, ~ key_lt a a.
Proof. intros [a|a]; cbn; [lia|apply lex_irrefl]. Qed.
Lemma key_trans : forall a b c, key_lt a b -> key_lt b c -> key_lt a c.
Proof. intros [a|a] [b|b] [c|c]; cbn; try contradiction; [lia|apply lex_trans]. Qed.
Lemma key_total : forall kd a b, kkind kd a -> kkind kd b -> key_lt a b \/ a = b \/ key_lt b a.
Proof.
  intros [|] [a|a] [b|b]; cbn; try contradiction; intros _ _.
  - destruct (Z.lt_trichotomy a b) as [H|[->|H]]; auto.
  - destruct (lex_total a b) as [H|[->|H]]; auto.
Qed.
Lemma key_asym : forall a b, key_lt a b -> ~ key_lt b a.
Proof. intros a b H K. exact (key_irrefl a (key_trans a b a H K)). Qed.

(** ** The place of a key *)
Definition hit (k : key) (h : list key) : Prop := h = [] \/ h = [k].
Lemma split_at : forall kd k ks, Forall (kkind kd) ks -> kkind kd k -> StronglySorted key_lt ks ->
  exists a h b, ks = a ++ h ++ b /\ Forall (fun x => key_lt x k) a /\ Forall (key_lt k) b /\ hit k h.
Proof.
  intros kd k ks F K S. induction S as [|x ks S IH L]; [exists [], [], []; repeat split; auto; left; reflexivity|].
  inversion F as [|? ? F1 F2]; subst. destruct (IH F2) as (a & h & b & -> & A & B & H).
  destruct (key_total kd x k F1 K) as [X|[->|X]].
  - exists (x :: a), h, b. repeat split; auto.
  - exists [], [k], (a ++ h ++ b). repeat split; auto. right; reflexivity.
  - exists [], [], (x :: a ++ h ++ b). repeat split; auto; [|left; reflexivity]. constructor; [exact X|].
    eapply Forall_impl; [|exact L]. intros y Y. exact (key_trans _ _ _ X Y).
Qed.
Lemma count_true : forall n bs, count_leading (repeat true n ++ bs) = (n + count_leading bs)%nat.
Proof. induction n; intro bs; cbn; [reflexivity|]. rewrite IHn. reflexivity. Qed.
Lemma count_false : forall n, count_leading (repeat false n) = 0%nat.
Proof. destruct n; reflexivity. Qed.
Lemma trues_first_ok : forall n m, trues_first (repeat true n ++ repeat false m) = true.
Proof.
  intros n m. unfold trues_first. rewrite count_true, count_false, Nat.add_0_r.
  rewrite skipn_app, repeat_length, Nat.sub_diag. rewrite skipn_all2 by (rewrite repeat_length; lia). cbn [app skipn].
  induction m; cbn; auto.
Qed.
Lemma map_const : forall A B (f : A -> B) c l, Forall (fun x => f x = c) l -> map f l = repeat c (length l).
Proof. intros A B f c l H. induction H as [|x l E _ IH]; cbn; [reflexivity|]. rewrite E, IH. reflexivity. Qed.

Definition entries (kd : kind) (d : dictv) (ks : list key) : Prop := Forall2 (fun e k => key_of kd (fst e) k) d ks.
Lemma all_lt_ok : forall kd d ks f g, entries kd d ks -> (forall v k, key_of kd v k -> f v = Val (g k)) -> all_lt_keys d f = Val (map g ks).
Proof.
  intros kd d ks f g H E. induction H as [|[v o] k d ks K _ IH]; [reflexivity|]. cbn [all_lt_keys map fst] in *.
  rewrite (E v k K). cbn [obind]. rewrite IH. reflexivity.
Qed.
Lemma entries_length : forall kd d ks, entries kd d ks -> length d = length ks.
Proof. intros kd d ks H. induction H; cbn; congruence. Qed.
Lemma entries_app : forall kd d a b, entries kd d (a ++ b) -> exists d1 d2, d = d1 ++ d2 /\ entries kd d1 a /\ entries kd d2 b.
Proof. intros kd d a b H. apply Forall2_app_inv_r in H. destruct H as (d1 & d2 & H1 & H2 & ->). eauto. Qed.

Lemma locate_ok : forall kd kv k d1 dh d2 a h b st, key_of kd kv k -> entries kd d1 a -> entries kd dh h -> entries kd d2 b ->
  Forall (fun x => key_lt x k) a -> Forall (key_lt k) b -> hit k h ->
  dict_locate kv (d1 ++ dh ++ d2) st = Val (DPos d1 (hd_error dh) d2).
Proof.
  intros kd kv k d1 dh d2 a h b st K E1 Eh E2 A B H.
  set (d := d1 ++ dh ++ d2).
  assert (E : entries kd d (a ++ h ++ b)) by (apply Forall2_app; [exact E1|apply Forall2_app; assumption]).
  assert (LT : forall x, In x a -> kltb x k = true /\ kltb k x = false).
  { intros x I. rewrite Forall_forall in A. specialize (A x I). split; [apply kltb_lt; exact A|].
    destruct (kltb k x) eqn:Q; [|reflexivity]. apply kltb_lt in Q. destruct (key_asym _ _ A Q). }
  assert (GT : forall x, In x b -> kltb x k = false /\ kltb k x = true).
  { intros x I. rewrite Forall_forall in B. specialize (B x I). split; [|apply kltb_lt; exact B].
    destruct (kltb x k) eqn:Q; [|reflexivity]. apply kltb_lt in Q. destruct (key_asym _ _ B Q). }
  assert (EQ : kltb k k = false).
  { destruct (kltb k k) eqn:Q; [|reflexivity]. apply kltb_lt in Q. destruct (key_irrefl _ Q). }
  assert (HH : forall x, In x h -> x = k) by (destruct H as [->| ->]; cbn; intuition).
  assert (ML : map (fun x => kltb x k) (a ++ h ++ b) = repeat true (length a) ++ repeat false (length h + length b)).
  { rewrite !map_app, repeat_app. f_equal; [|f_equal]; apply map_const; apply Forall_forall; intros x I.
    - apply LT, I. - rewrite (HH x I). exact EQ. - apply GT, I. }
  assert (MG : map negb (map (kltb k) (a ++ h ++ b)) = repeat true (length a + length h) ++ repeat false (length b)).
  { rewrite map_map, !map_app, repeat_app, <- app_assoc. f_equal; [|f_equal]; apply map_const; apply Forall_forall; intros x I.
    - destruct (LT x I) as [_ ->]. reflexivity. - rewrite (HH x I), EQ. reflexivity. - destruct (GT x I) as [_ ->]. reflexivity. }
  assert (GEN : match all_lt_keys d (fun k => v_lt k kv st), all_lt_keys d (fun k => v_lt kv k st) with
    | Val lts, Val gts =>
      let n := count_leading lts in
      let m := count_leading (map negb gts) in
      if trues_first lts && trues_first (map negb gts) then
        if (m =? n)%nat then Val (DPos (firstn n d) None (skipn n d))
        else if (m =? S n)%nat then
          Val (DPos (firstn n d) (nth_error d n) (skipn m d))
        else Undef UBComparator
      else Undef UBComparator
    | Undef u, _ => Undef u
    | _, Undef u => Undef u
    | _, _ => Unmod $"comparison of dictionary keys throws"
    end = Val (DPos d1 (hd_error dh) d2)).
  { rewrite (all_lt_ok kd d _ _ (fun x => kltb x k) E) by (intros; apply (v_lt_keys kd); assumption).
    rewrite (all_lt_ok kd d _ _ (kltb k) E) by (intros; apply (v_lt_keys kd); assumption).
    rewrite ML, MG. cbv zeta. rewrite !count_true, !count_false, !trues_first_ok, !Nat.add_0_r. cbn [andb].
    pose proof (entries_length _ _ _ E1) as L1. pose proof (entries_length _ _ _ Eh) as Lh.
    unfold d. destruct H as [->| ->]; cbn [length] in *.
    - destruct dh; [|discriminate]. rewrite Nat.add_0_r, Nat.eqb_refl. rewrite <- L1. cbn [app hd_error].
      rewrite firstn_app, firstn_all, Nat.sub_diag, skipn_app, skipn_all, Nat.sub_diag. cbn [firstn skipn]. rewrite app_nil_r. reflexivity.
    - destruct dh as [|x [|y dh]]; try discriminate. cbn [hd_error app].
      replace (length a + 1 =? length a)%nat with false by (symmetry; apply Nat.eqb_neq; lia).
      replace (length a + 1 =? S (length a))%nat with true by (symmetry; apply Nat.eqb_eq; lia).
      rewrite <- L1. rewrite firstn_app, firstn_all, Nat.sub_diag. cbn [firstn]. rewrite app_nil_r.
      rewrite nth_error_app2, Nat.sub_diag by lia. cbn [nth_error].
      rewrite skipn_app. replace (length d1 + 1 - length d1)%nat with 1%nat by lia. rewrite skipn_all2 by lia. reflexivity. }
  destruct d as [|[k0 o0] [|e2 dd]] eqn:D.
  - unfold d in D. destruct d1; [|discriminate]. destruct dh; [|discriminate]. cbn in D. subst d2. reflexivity.
  - unfold dict_locate. assert (ES := E). destruct (a ++ h ++ b) as [|x [|? ?]] eqn:AB; inversion ES as [|? ? ? ? KX KY]; subst; [|inversion KY].
    cbn [fst] in KX. rewrite (v_lt_keys kd k0 kv x k) by assumption. cbn [obind]. rewrite (v_lt_keys kd kv k0 k x) by assumption. cbn [obind].
    destruct d1 as [|e1 d1].
    + inversion E1; subst. destruct dh as [|e1 dh].
      * inversion Eh; subst. cbn in AB. subst b. destruct (GT x (or_introl eq_refl)) as [-> ->].
        unfold d in D. cbn in D. subst d2. reflexivity.
      * inversion Eh; subst. cbn in AB. injection AB as -> AB. rewrite (HH x (or_introl eq_refl)), EQ.
        unfold d in D. cbn in D. injection D as -> D. destruct dh; [|discriminate]. cbn in D. subst d2. reflexivity.
    + inversion E1; subst. cbn in AB. injection AB as -> AB. destruct (LT x (or_introl eq_refl)) as [-> _].
      unfold d in D. cbn in D. injection D as -> D. destruct d1; [|discriminate]. destruct dh; [|discriminate]. cbn in D. subst d2. reflexivity.
  - unfold dict_locate. exact GEN.
Qed.

(** ** The map a dictionary stands for *)
Fixpoint look (d : dictv) (ks : list key) (k : key) : option obj :=
  match d, ks with
  | (_, o) :: d', x :: ks' => if key_dec k x then o else look d' ks' k
  | _, _ => None
  end.
Lemma look_in : forall d1 a d2 b k, length d1 = length a -> In k a -> look (d1 ++ d2) (a ++ b) k = look d1 a k.
Proof.
  induction d1 as [|[v o] d1 IH]; intros [|x a] d2 b k L I; try discriminate; [destruct I|]. cbn [app look].
  destruct (key_dec k x) as [->|N]; [reflexivity|]. apply IH; [cbn in L; congruence|]. destruct I as [->|I]; [congruence|exact I].
Qed.
Lemma look_skip : forall d1 a d2 b k, length d1 = length a -> ~ In k a -> look (d1 ++ d2) (a ++ b) k = look d2 b k.
Proof.
  induction d1 as [|[v o] d1 IH]; intros [|x a] d2 b k L I; try discriminate; [reflexivity|]. cbn [app look].
  destruct (key_dec k x) as [->|N]; [destruct I; left; reflexivity|]. apply IH; [cbn in L; congruence|]. intro; apply I; right; assumption.
Qed.
Lemma look_none : forall d ks k, ~ In k ks -> look d ks k = None.
Proof.
  induction d as [|[v o] d IH]; intros [|x ks] k I; try reflexivity. cbn [look].
  destruct (key_dec k x) as [->|N]; [destruct I; left; reflexivity|]. apply IH. intro; apply I; right; assumption.
Qed.
Lemma look_some : forall kd d ks k, entries kd d ks -> Forall (fun e : variant * option obj => exists o, snd e = Some o) d -> In k ks -> look d ks k <> None.
Proof.
  intros kd d ks k H. induction H as [|[v o] x d ks K _ IH]; intros F I; [destruct I|]. inversion F as [|? ? [o' F1] F2]; subst.
  cbn [look]. destruct (key_dec k x) as [->|N]; [cbn in F1; congruence|]. apply IH; [exact F2|]. destruct I as [->|I]; [congruence|exact I].
Qed.
Lemma ss_app : forall a b, StronglySorted key_lt (a ++ b) <->
  StronglySorted key_lt a /\ StronglySorted key_lt b /\ forall x y, In x a -> In y b -> key_lt x y.
Proof.
  induction a as [|x a IH]; intro b; cbn [app].
  - split; [intro H; repeat split; [constructor|exact H|intros ? ? []]|tauto].
  - split.
    + intro H. inversion H as [|? ? S F]; subst. apply -> IH in S. destruct S as (A & B & C). rewrite Forall_app in F. destruct F as [F1 F2].
      split; [constructor; assumption|]. split; [exact B|]. intros u w [->|I] J; [rewrite Forall_forall in F2; auto|auto].
    + intros (A & B & C). inversion A as [|? ? S F]; subst. constructor.
      * apply IH. split; [exact S|]. split; [exact B|]. intros; apply C; [right|]; assumption.
      * apply Forall_app. split; [exact F|]. apply Forall_forall. intros y I. apply C; [left; reflexivity|exact I].
Qed.
Definition plain (e : variant * option obj) : Prop := exists o, snd e = Some o /\ forall w, o <> OVar w.
Definition dinv (kd : kind) (h : list dop) (d : dictv) (ks : list key) : Prop :=
  entries kd d ks /\ StronglySorted key_lt ks /\ Forall plain d /\ forall k, content h k = look d ks k.

Lemma dinv_keys : forall kd h d ks, dinv kd h d ks -> keys_are h ks.
Proof.
  intros kd h d ks (E & S & F & C). split; [exact S|]. intro k. rewrite C. split.
  - intro I. apply (look_some kd); [exact E| |exact I]. eapply Forall_impl; [|exact F]. intros e (o & O & _). eauto.
  - intro N. destruct (in_dec key_dec k ks) as [I|I]; [exact I|]. destruct N. apply look_none, I.
Qed.
Lemma keys_unique : forall h ks ks', keys_are h ks -> keys_are h ks' -> ks = ks'.
Proof.
  intros h ks ks' [S1 I1] [S2 I2]. assert (I : forall k, In k ks <-> In k ks') by (intro k; rewrite I1, I2; tauto).
  clear I1 I2. revert ks' S2 I. induction S1 as [|x ks S1 IH L]; intros ks' S2 I.
  - destruct ks' as [|y ks']; [reflexivity|]. destruct (proj2 (I y) (or_introl eq_refl)).
  - destruct S2 as [|y ks' S2 L2]; [destruct (proj1 (I x) (or_introl eq_refl))|].
    rewrite Forall_forall in L, L2.
    assert (x = y).
    { destruct (proj1 (I x) (or_introl eq_refl)) as [|J]; [congruence|].
      destruct (proj2 (I y) (or_introl eq_refl)) as [|K]; [congruence|]. destruct (key_asym _ _ (L y K) (L2 x J)). }
    subst y. f_equal. apply IH; [exact S2|]. intro k. split; intro J.
    + destruct (proj1 (I k) (or_intror J)) as [<-|K]; [|exact K]. destruct (key_irrefl _ (L _ J)).
    + destruct (proj2 (I k) (or_intror J)) as [<-|K]; [|exact K]. destruct (key_irrefl _ (L2 _ J)).
Qed.
Lemma dinv_start : forall kd, dinv kd [] [] [].
Proof. intro kd. repeat split; constructor. Qed.
Lemma dinv_clear : forall kd h, dinv kd (DClear :: h) [] [].
Proof. intros kd h. repeat split; constructor. Qed.

Lemma entries_kind : forall kd d ks, entries kd d ks -> Forall (kkind kd) ks.
Proof. intros kd d ks H. induction H; constructor; auto. eapply key_of_kind; eassumption. Qed.
(** Where a key is looked up. *)
Lemma locate_inv : forall kd h d ks kv k st, dinv kd h d ks -> key_of kd kv k -> exists d1 dh d2 a hh b,
  d = d1 ++ dh ++ d2 /\ ks = a ++ hh ++ b /\ entries kd d1 a /\ entries kd dh hh /\ entries kd d2 b /\
  Forall (fun x => key_lt x k) a /\ Forall (key_lt k) b /\ hit k hh /\
  dict_locate kv d st = Val (DPos d1 (hd_error dh) d2) /\
  content h k = match dh with e :: _ => snd e | [] => None end.
Proof.
  intros kd h d ks kv k st (E & S & F & C) K.
  destruct (split_at kd k ks (entries_kind _ _ _ E) (key_of_kind _ _ _ K) S) as (a & hh & b & -> & A & B & H).
  destruct (entries_app _ _ _ _ E) as (d1 & d' & -> & E1 & E'). destruct (entries_app _ _ _ _ E') as (dh & d2 & -> & Eh & E2).
  exists d1, dh, d2, a, hh, b. repeat match goal with |- _ /\ _ => split end; auto.
  - apply (locate_ok kd kv k d1 dh d2 a hh b); assumption.
  - rewrite C. assert (NA : ~ In k a) by (intro I; rewrite Forall_forall in A; exact (key_irrefl _ (A _ I))).
    rewrite look_skip; [|apply (entries_length kd); exact E1|exact NA].
    destruct H as [->| ->]; destruct dh as [|[v o] dh]; inversion Eh; subst; cbn [app look snd].
    + apply look_none. intro I. rewrite Forall_forall in B. exact (key_irrefl _ (B _ I)).
    + destruct (key_dec k k); congruence.
Qed.
Lemma split_facts : forall kd d1 dh d2 a hh b k, entries kd (d1 ++ dh ++ d2) (a ++ hh ++ b) -> entries kd d1 a -> entries kd dh hh -> entries kd d2 b ->
  Forall (fun x => key_lt x k) a -> Forall (key_lt k) b -> hit k hh -> ~ In k a /\ ~ In k b /\
  length d1 = length a /\ length dh = length hh /\
  forall j, j <> k -> look (d1 ++ dh ++ d2) (a ++ hh ++ b) j = if in_dec key_dec j a then look d1 a j else look d2 b j.
Proof.
  intros kd d1 dh d2 a hh b k E E1 Eh E2 A B H. rewrite Forall_forall in A, B.
  pose proof (entries_length _ _ _ E1) as L1. pose proof (entries_length _ _ _ Eh) as Lh.
  repeat match goal with |- _ /\ _ => split end; auto.
  - intro I. exact (key_irrefl _ (A _ I)). - intro I. exact (key_irrefl _ (B _ I)).
  - intros j N. destruct (in_dec key_dec j a) as [I|I].
    + apply look_in; assumption.
    + rewrite look_skip by assumption. apply look_skip; [assumption|]. destruct H as [->| ->]; cbn; [tauto|]. intuition congruence.
Qed.
Lemma dinv_set : forall kd h d1 dh d2 a hh b k k' o, dinv kd h (d1 ++ dh ++ d2) (a ++ hh ++ b) -> entries kd d1 a -> entries kd dh hh -> entries kd d2 b ->
  Forall (fun x => key_lt x k) a -> Forall (key_lt k) b -> hit k hh -> key_of kd k' k -> (forall w, o <> OVar w) ->
  dinv kd (DSet k o :: h) (d1 ++ (k', Some o) :: d2) (a ++ k :: b).
Proof.
  intros kd h d1 dh d2 a hh b k k' o (E & S & F & C) E1 Eh E2 A B H K O.
  destruct (split_facts kd _ _ _ _ _ _ k E E1 Eh E2 A B H) as (NA & NB & L1 & Lh & LK).
  apply -> ss_app in S. destruct S as (SA & S & SS). apply -> ss_app in S. destruct S as (_ & SB & _).
  rewrite Forall_forall in A, B. split; [|split; [|split]].
  - apply Forall2_app; [exact E1|]. constructor; [exact K|exact E2].
  - apply ss_app. split; [exact SA|]. split; [constructor; [exact SB|apply Forall_forall; exact B]|].
    intros x y I [<-|J]; [auto|]. apply SS; [exact I|apply in_or_app; right; exact J].
  - rewrite !Forall_app in F. destruct F as (F1 & _ & F2). apply Forall_app. split; [exact F1|]. constructor; [exists o; split; [reflexivity|exact O]|exact F2].
  - intro j. cbn [content]. destruct (key_dec j k) as [->|N].
    + rewrite look_skip by assumption. cbn [look]. destruct (key_dec k k); congruence.
    + rewrite C, (LK j N). destruct (in_dec key_dec j a) as [I|I].
      * symmetry. apply look_in; assumption.
      * rewrite look_skip by assumption. cbn [look]. destruct (key_dec j k); congruence.
Qed.
Lemma dinv_remove : forall kd h d1 dh d2 a hh b k, dinv kd h (d1 ++ dh ++ d2) (a ++ hh ++ b) -> entries kd d1 a -> entries kd dh hh -> entries kd d2 b ->
  Forall (fun x => key_lt x k) a -> Forall (key_lt k) b -> hit k hh ->
  dinv kd (DRemove k :: h) (d1 ++ d2) (a ++ b).
Proof.
  intros kd h d1 dh d2 a hh b k (E & S & F & C) E1 Eh E2 A B H.
  destruct (split_facts kd _ _ _ _ _ _ k E E1 Eh E2 A B H) as (NA & NB & L1 & Lh & LK).
  apply -> ss_app in S. destruct S as (SA & S & SS). apply -> ss_app in S. destruct S as (_ & SB & _).
  rewrite Forall_forall in A, B. split; [|split; [|split]].
  - apply Forall2_app; [exact E1|exact E2].
  - apply ss_app. split; [exact SA|]. split; [exact SB|]. intros x y I J. apply SS; [exact I|apply in_or_app; right; exact J].
  - rewrite !Forall_app in F. destruct F as (F1 & _ & F2). apply Forall_app. split; assumption.
  - intro j. cbn [content]. destruct (key_dec j k) as [->|N].
    + rewrite look_skip by assumption. symmetry. apply look_none, NB.
    + rewrite C, (LK j N). destruct (in_dec key_dec j a) as [I|I].
      * symmetry. apply look_in; assumption.
      * symmetry. apply look_skip; assumption.
Qed.

(** ** The functions *)
Definition holds_dict (kd : kind) (l : loc) (h : list dop) (st : state) : Prop := exists d ks, dict_at st l = Some d /\ dinv kd h d ks.

Ltac dstep := unfold check_args, dict_arg, argv, arg, bind, lift, reads, ret, some; cbn [length Nat.eqb negb nth_error]; cbn [vref vref_obj].

Lemma put_only : forall st l d st', st' = with_dicts (PositiveMap.add l d (st_dicts st)) st -> only_dict st st' l /\ dict_at st' l = Some d.
Proof.
  intros st l d st' ->. split.
  - split; [|repeat split]. intros m N. unfold dict_at. cbn [st_dicts with_dicts]. apply PositiveMap.gso, N.
  - unfold dict_at. cbn [st_dicts with_dicts]. apply PositiveMap.gss.
Qed.
Lemma only_same : forall st l, only_dict st st l. Proof. intros. split; [|repeat split]. reflexivity. Qed.

Lemma set_run : forall R kd l h st p q v k o s, holds_dict kd l h st -> dict_arg_is p l -> key_arg kd q k -> value_arg v o ->
  exists r st', call_builtin R BDictSet [p; q; v] s st = (Val (Some r), st') /\ v = P (match v with P i _ => i | _ => 1%positive end) (OVar r) /\
    holds_dict kd l (DSet k o :: h) st' /\ only_dict st st' l.
Proof.
  intros R kd l h st p q v k o s (d & ks & D & I) (ip & vp & -> & TP & VP) (iq & vq & -> & K) (iv & w & -> & V & O).
  destruct (locate_inv _ _ _ _ vq k st I K) as (d1 & dh & d2 & a & hh & b & -> & -> & E1 & Eh & E2 & A & B & H & L & _).
  cbn [call_builtin]. unfold b_dictset. dstep. rewrite VP. unfold get_dict. unfold dict_at in D. rewrite D, L. cbn [dp_hit dp_before dp_after].
  unfold put_dict. rewrite V. set (k' := match hd_error dh with Some (k0, _) => k0 | None => vq end).
  exists w. eexists. split; [reflexivity|]. split; [reflexivity|].
  destruct (put_only st l (d1 ++ (k', Some o) :: d2) _ eq_refl) as [P1 P2].
  split; [|exact P1]. exists (d1 ++ (k', Some o) :: d2), (a ++ k :: b). split; [exact P2|].
  eapply dinv_set; eauto. subst k'. destruct H as [->| ->]; destruct dh as [|[k0 o0] dh]; inversion Eh; subst; assumption.
Qed.
Lemma remove_run : forall R kd l h st p q k s, holds_dict kd l h st -> dict_arg_is p l -> key_arg kd q k ->
  exists r st', call_builtin R BDictRemove [p; q] s st = (Val (Some r), st') /\
    is_bool r (match content h k with Some _ => true | None => false end) /\
    holds_dict kd l (DRemove k :: h) st' /\ only_dict st st' l.
Proof.
  intros R kd l h st p q k s (d & ks & D & I) (ip & vp & -> & TP & VP) (iq & vq & -> & K).
  destruct (locate_inv _ _ _ _ vq k st I K) as (d1 & dh & d2 & a & hh & b & -> & -> & E1 & Eh & E2 & A & B & H & L & C).
  cbn [call_builtin]. unfold b_dictremove. dstep. rewrite VP. unfold get_dict. assert (D' := D). unfold dict_at in D. rewrite D, L. cbn [dp_hit dp_before dp_after].
  rewrite C. pose proof (dinv_remove _ _ _ _ _ _ _ _ k I E1 Eh E2 A B H) as X.
  destruct dh as [|[k0 o0] dh]; cbn [hd_error snd].
  - exists (vbool false), st. split; [reflexivity|]. split; [apply vbool_is|]. split; [|apply only_same].
    exists (d1 ++ d2), (a ++ b). split; [exact D'|exact X].
  - unfold put_dict. exists (vbool true). eexists. split; [reflexivity|].
    destruct I as (_ & _ & F & _). rewrite !Forall_app in F. destruct F as (_ & F & _). inversion F as [|? ? (o & Q & _) _]; subst. cbn in Q. subst o0.
    split; [apply vbool_is|].
    destruct (put_only st l (d1 ++ d2) _ eq_refl) as [P1 P2]. split; [|exact P1]. exists (d1 ++ d2), (a ++ b). split; [exact P2|exact X].
Qed.
Lemma clear_run : forall R kd l h st p s, holds_dict kd l h st -> dict_arg_is p l ->
  exists r st', call_builtin R BDictClear [p] s st = (Val (Some r), st') /\ holds_dict kd l (DClear :: h) st' /\ only_dict st st' l.
Proof.
  intros R kd l h st p s (d & ks & D & I) (ip & vp & -> & TP & VP).
  cbn [call_builtin]. unfold b_dictclear. dstep. rewrite VP. unfold get_dict. unfold dict_at in D. rewrite D. unfold put_dict.
  eexists. eexists. split; [reflexivity|]. destruct (put_only st l [] _ eq_refl) as [P1 P2]. split; [|exact P1].
  exists [], []. split; [exact P2|apply dinv_clear].
Qed.
Lemma get_run : forall R kd l h st p q k s, holds_dict kd l h st -> dict_arg_is p l -> key_arg kd q k ->
  call_builtin R BDictGet [p; q] s st = (Val (Some (var_of_obj (match content h k with Some o => o | None => OUndef end))), st).
Proof.
  intros R kd l h st p q k s (d & ks & D & I) (ip & vp & -> & TP & VP) (iq & vq & -> & K).
  destruct (locate_inv _ _ _ _ vq k st I K) as (d1 & dh & d2 & a & hh & b & -> & -> & E1 & Eh & E2 & A & B & H & L & C).
  cbn [call_builtin]. unfold b_dictget. dstep. rewrite VP. unfold get_dict. unfold dict_at in D. rewrite D, L. cbn [dp_hit dp_before dp_after].
  rewrite C. destruct dh as [|[k0 o0] dh]; cbn [hd_error snd]; [reflexivity|].
  destruct I as (_ & _ & F & _). rewrite !Forall_app in F. destruct F as (_ & F & _). inversion F as [|? ? (o & Q & _) _]; subst. cbn in Q. subst o0. reflexivity.
Qed.
Lemma haskey_run : forall R kd l h st p q k s, holds_dict kd l h st -> dict_arg_is p l -> key_arg kd q k ->
  call_builtin R BDictContainsKey [p; q] s st = (Val (Some (vbool (match content h k with Some _ => true | None => false end))), st).
Proof.
  intros R kd l h st p q k s (d & ks & D & I) (ip & vp & -> & TP & VP) (iq & vq & -> & K).
  destruct (locate_inv _ _ _ _ vq k st I K) as (d1 & dh & d2 & a & hh & b & -> & -> & E1 & Eh & E2 & A & B & H & L & C).
  cbn [call_builtin]. unfold b_dicthaskey. dstep. rewrite VP. unfold get_dict. unfold dict_at in D. rewrite D, L. cbn [dp_hit dp_before dp_after].
  rewrite C. destruct dh as [|[k0 o0] dh]; cbn [hd_error snd]; [reflexivity|].
  destruct I as (_ & _ & F & _). rewrite !Forall_app in F. destruct F as (_ & F & _). inversion F as [|? ? (o & Q & _) _]; subst. cbn in Q. subst o0. reflexivity.
Qed.

Lemma history_holds : forall kd l h st0 st, history kd l h st0 st -> holds_dict kd l [] st0 -> holds_dict kd l h st.
Proof.
  intros kd l h st0 st H. induction H; intro B; auto.
  - destruct (IHhistory B) as (d & ks & D & I). exists d, ks. split; [congruence|exact I].
  - specialize (IHhistory B).
    destruct (builtin_code_call $"dict-set" BDictSet _ _ _ _ _ ltac:(vm_compute; reflexivity) H3) as (n & E & _).
    destruct (set_run (run n) kd l h st p q v k o s IHhistory H0 H1 H2) as (r' & st2 & E' & _ & X & _).
    rewrite E in E'. injection E' as _ <-. exact X.
  - specialize (IHhistory B).
    destruct (builtin_code_call $"dict-remove" BDictRemove _ _ _ _ _ ltac:(vm_compute; reflexivity) H2) as (n & E & _).
    destruct (remove_run (run n) kd l h st p q k s IHhistory H0 H1) as (r' & st2 & E' & _ & X & _).
    rewrite E in E'. injection E' as _ <-. exact X.
  - specialize (IHhistory B).
    destruct (builtin_code_call $"dict-clear" BDictClear _ _ _ _ _ ltac:(vm_compute; reflexivity) H1) as (n & E & _).
    destruct (clear_run (run n) kd l h st p s IHhistory H0) as (r' & st2 & E' & X & _).
    rewrite E in E'. injection E' as _ <-. exact X.
Qed.
Lemma dictionary_holds : forall kd l h st, dictionary kd l h st -> holds_dict kd l h st.
Proof.
  intros kd l h st (s & st0 & r & st1 & C & T & V & H). apply (history_holds _ _ _ _ _ H).
  destruct (builtin_code_call $"make-dict" BMakeDict _ _ _ _ _ ltac:(vm_compute; reflexivity) C) as (n & E & _).
  cbn [call_builtin] in E. unfold b_makedict in E. revert E. dstep. unfold alloc_dict. intro E. injection E as <- <-.
  cbn in V. injection V as <-. exists [], []. split; [|apply dinv_start]. unfold dict_at. cbn [st_dicts with_nloc with_dicts]. apply PositiveMap.gss.
Qed.

Lemma make_ok : forall s st, heap_numbered st -> exists r l st', builtin_call $"make-dict" [] s st (Val (Some r)) st' /\
  v_ty r = TNative /\ v_val r = Some (ODict l) /\ dict_at st l = None /\ only_adds st st' /\ forall kd, dictionary kd l [] st'.
Proof.
  intros s st [H1 H2].
  assert (C : builtin_call $"make-dict" [] s st (Val (Some (mkv TNative (ODict (st_nloc st)))))
    (with_nloc (Pos.succ (st_nloc st)) (with_dicts (PositiveMap.add (st_nloc st) [] (st_dicts st)) st))).
  { apply (builtin_calls 0 _ BMakeDict); [vm_compute; reflexivity|reflexivity|discriminate]. }
  do 3 eexists. split; [exact C|]. split; [reflexivity|]. split; [reflexivity|].
  assert (F : dict_at st (st_nloc st) = None).
  { destruct (dict_at st (st_nloc st)) as [x|] eqn:E; [|reflexivity]. specialize (H2 _ _ E). lia. }
  split; [exact F|]. split.
  - unfold only_adds. repeat match goal with |- _ /\ _ => split end; try reflexivity.
    + intros l x E. exact E.
    + intros l x E. unfold dict_at. cbn [st_dicts with_nloc with_dicts]. rewrite PositiveMap.gso; [exact E|]. intros ->. congruence.
  - intro kd. exists s, st. do 2 eexists. split; [exact C|]. split; [reflexivity|]. split; [reflexivity|]. constructor.
Qed.
Lemma history_snoc_set : forall kd l h st, dictionary kd l h st -> forall p q v k o s r st', dict_arg_is p l -> key_arg kd q k -> value_arg v o ->
    builtin_call $"dict-set" [p; q; v] s st (Val r) st' -> dictionary kd l (DSet k o :: h) st'.
Proof.
  intros kd l h st (s0 & st0 & r0 & st1 & C & T & V & H). intros. exists s0, st0, r0, st1. repeat (split; [assumption|]). econstructor; eassumption.
Qed.
Lemma set_ok : forall kd l h st p q i v k o s, dictionary kd l h st -> dict_arg_is p l -> key_arg kd q k -> value_arg (P i (OVar v)) o ->
  exists st', builtin_call $"dict-set" [p; q; P i (OVar v)] s st (Val (Some v)) st' /\ only_dict st st' l /\ dictionary kd l (DSet k o :: h) st'.
Proof.
  intros kd l h st p q i v k o s H A K V.
  destruct (set_run (run 0) kd l h st p q (P i (OVar v)) k o s (dictionary_holds _ _ _ _ H) A K V) as (r & st' & E & R & _ & O).
  injection R as <-. exists st'.
  assert (C : builtin_call $"dict-set" [p; q; P i (OVar v)] s st (Val (Some v)) st')
    by (apply (builtin_calls 0 _ BDictSet); [vm_compute; reflexivity|exact E|discriminate]).
  split; [exact C|]. split; [exact O|]. eapply history_snoc_set; eassumption.
Qed.
Lemma remove_ok : forall kd l h st p q k s, dictionary kd l h st -> dict_arg_is p l -> key_arg kd q k ->
  exists r st', builtin_call $"dict-remove" [p; q] s st (Val (Some r)) st' /\ (exists b, is_bool r b /\ (b = true <-> content h k <> None)) /\
    only_dict st st' l /\ dictionary kd l (DRemove k :: h) st'.
Proof.
  intros kd l h st p q k s H A K.
  destruct (remove_run (run 0) kd l h st p q k s (dictionary_holds _ _ _ _ H) A K) as (r & st' & E & R & _ & O).
  exists r, st'.
  assert (C : builtin_call $"dict-remove" [p; q] s st (Val (Some r)) st')
    by (apply (builtin_calls 0 _ BDictRemove); [vm_compute; reflexivity|exact E|discriminate]).
  split; [exact C|]. split; [|split; [exact O|]].
  - eexists. split; [exact R|]. destruct (content h k); split; congruence.
  - destruct H as (s0 & st0 & r0 & st1 & C0 & T & V & H). exists s0, st0, r0, st1. repeat (split; [assumption|]). eapply hi_remove; eassumption.
Qed.
Lemma clear_ok : forall kd l h st p s, dictionary kd l h st -> dict_arg_is p l ->
  exists r st', builtin_call $"dict-clear" [p] s st (Val (Some r)) st' /\ only_dict st st' l /\ dictionary kd l (DClear :: h) st'.
Proof.
  intros kd l h st p s H A.
  destruct (clear_run (run 0) kd l h st p s (dictionary_holds _ _ _ _ H) A) as (r & st' & E & _ & O).
  exists r, st'.
  assert (C : builtin_call $"dict-clear" [p] s st (Val (Some r)) st')
    by (apply (builtin_calls 0 _ BDictClear); [vm_compute; reflexivity|exact E|discriminate]).
  split; [exact C|]. split; [exact O|].
  destruct H as (s0 & st0 & r0 & st1 & C0 & T & V & H). exists s0, st0, r0, st1. repeat (split; [assumption|]). eapply hi_clear; eassumption.
Qed.
Lemma content_plain : forall kd l h st k o, dictionary kd l h st -> content h k = Some o -> forall w, o <> OVar w.
Proof.
  intros kd l h st k o H. apply dictionary_holds in H. destruct H as (d & ks & _ & (_ & _ & F & C)). rewrite C. clear - F.
  revert ks. induction F as [|[v o'] d (x & E & N) F IH]; intros [|y ks] L; try discriminate. cbn [look] in L.
  destruct (key_dec k y); [cbn in E; congruence|]. eapply IH; eassumption.
Qed.
Lemma get_ok : forall kd l h st p q k s, dictionary kd l h st -> dict_arg_is p l -> key_arg kd q k ->
  builtin_pure $"dict-get" [p; q] s st (fun r => match content h k with Some o => v_val r = Some o | None => v_ty r = TUndef end).
Proof.
  intros kd l h st p q k s H A K. eapply (pure_intro _ BDictGet); [vm_compute; reflexivity| |].
  - eapply get_run; eauto. apply dictionary_holds; exact H.
  - destruct (content h k) as [o|] eqn:C; [|reflexivity]. pose proof (content_plain _ _ _ _ _ _ H C) as N.
    destruct o; try reflexivity. destruct (N v); reflexivity.
Qed.
Lemma haskey_ok : forall kd l h st p q k s, dictionary kd l h st -> dict_arg_is p l -> key_arg kd q k ->
  builtin_pure $"dict-contains-key" [p; q] s st (fun r => exists b, is_bool r b /\ (b = true <-> content h k <> None)).
Proof.
  intros kd l h st p q k s H A K. eapply (pure_intro _ BDictContainsKey); [vm_compute; reflexivity| |].
  - eapply haskey_run; eauto. apply dictionary_holds; exact H.
  - eexists. split; [apply vbool_is|]. destruct (content h k); split; congruence.
Qed.
Lemma dlen_ok : forall kd l h st p ks s, dictionary kd l h st -> dict_arg_is p l -> keys_are h ks -> (Z.of_nat (length ks) <= 2147483647)%Z ->
  builtin_pure $"len" [p] s st (fun r => is_int r (Z.of_nat (length ks))).
Proof.
  intros kd l h st p ks s H A K B. apply dictionary_holds in H. destruct H as (d & ks' & D & I).
  rewrite (keys_unique _ _ _ K (dinv_keys _ _ _ _ I)) in *. destruct I as (E & _). rewrite <- (entries_length _ _ _ E) in *.
  eapply (pure_intro _ BLength); [vm_compute; reflexivity| |apply vint_is].
  destruct A as (i & v & -> & T & V). cbn [call_builtin]. unfold b_len. dstep. unfold is_ty. rewrite T, V. change (ltype_eqb TNative TNative) with true. cbn iota.
  unfold get_dict. unfold dict_at in D. rewrite D. rewrite wrap32_id by lia. reflexivity.
Qed.
Lemma keys_known : forall kd l h st, dictionary kd l h st -> exists ks, keys_are h ks.
Proof. intros kd l h st H. apply dictionary_holds in H. destruct H as (d & ks & _ & I). exists ks. eapply dinv_keys; exact I. Qed.
Lemma new_ptrs_run : forall vs st, exists ps st', new_var_ptrs vs st = (Val ps, st') /\ Forall2 (fun p v => exists i, p = P i (OVar v)) ps vs /\
  exists n, st' = with_nid n st.
Proof.
  induction vs as [|v vs IH]; intro st.
  - exists [], st. split; [reflexivity|]. split; [constructor|]. exists (st_nid st). destruct st; reflexivity.
  - cbn [new_var_ptrs]. unfold bind at 1, new_var_ptr, new_ptr. destruct (IH (with_nid (Pos.succ (st_nid st)) st)) as (ps & st' & E & F & n & ->).
    unfold bind. rewrite E. unfold ret. do 2 eexists. split; [reflexivity|]. split; [constructor; [eexists; reflexivity|exact F]|].
    exists n. destruct st; reflexivity.
Qed.
Lemma keys_ok : forall kd l h st p ks s, dictionary kd l h st -> dict_arg_is p l -> keys_are h ks -> heap_numbered st ->
  exists es, builtin_list $"dict-keys" [p] s st es /\ Forall2 (fun e k => exists v, element e v /\ key_of kd v k) es ks.
Proof.
  intros kd l h st p ks s H A K N. apply dictionary_holds in H. destruct H as (d & ks' & D & I).
  rewrite (keys_unique _ _ _ K (dinv_keys _ _ _ _ I)) in *. destruct I as (E & _).
  destruct (new_ptrs_run (map fst d) st) as (ps & st1 & R & F & n & ->). exists ps.
  assert (N1 : heap_numbered (with_nid n st)) by exact N.
  destruct (alloc_list ps _ N1) as (r & st2 & L & NL & OA & N2). split.
  - exists r, st2. split; [|split; [exact NL|split; [exact OA|exact N2]]].
    apply (builtin_calls 0 _ BDictKeys); [vm_compute; reflexivity| |discriminate].
    destruct A as (i & v & -> & T & V). cbn [call_builtin]. unfold b_dictkeys. dstep. rewrite V. unfold get_dict. unfold dict_at in D. rewrite D.
    rewrite R. exact L.
  - clear - E F. revert ps F. induction E as [|[v o] k d ks K _ IH]; intros ps F; inversion F as [|? ? ? ? (i & ->) F']; subst; constructor.
    + exists v. split; [constructor|exact K]. + apply IH, F'.
Qed.

(** ** Values *)
Definition simple (o : obj) : Prop := match o with OBool _ | OInt _ | OString _ => True | _ => False end.
Lemma simple_eq : forall a b st, (forall w, a <> OVar w) -> simple b -> exists e, obj_eqb a b st = Val e /\ (e = true <-> a = b).
Proof.
  intros a b st N S. assert (E : obj_eqb a b st = obj_eq_simple a b st) by (destruct a; try reflexivity; destruct (N v); reflexivity).
  rewrite E. destruct b; try destruct S; destruct a; cbn [obj_eq_simple]; try (exists false; split; [reflexivity|]; split; discriminate).
  - eexists; split; [reflexivity|]. rewrite Bool.eqb_true_iff. split; congruence.
  - eexists; split; [reflexivity|]. rewrite Z.eqb_eq. split; congruence.
  - eexists; split; [reflexivity|]. rewrite str_eqb_eq. split; congruence.
Qed.
Lemma hasvalue_run : forall d b st, Forall plain d -> simple b -> exists e, dict_has_value d (Some b) st = Val e /\ (e = true <-> exists x, In x d /\ snd x = Some b).
Proof.
  intros d b st F S. induction F as [|[v o] d (a & E & N) F IH]; cbn [dict_has_value].
  - exists false. split; [reflexivity|]. split; [discriminate|]. intros (x & [] & _).
  - cbn in E. subst o. destruct (simple_eq a b st N S) as (e & -> & Q). cbn [obind]. destruct e.
    + exists true. split; [reflexivity|]. split; [|reflexivity]. intros _. exists (v, Some a). split; [left; reflexivity|]. cbn. f_equal. apply Q. reflexivity.
    + destruct IH as (e & -> & IH). exists e. split; [reflexivity|]. rewrite IH. split.
      * intros (x & I & X). exists x. split; [right; exact I|exact X].
      * intros (x & [<-|I] & X); [|exists x; auto]. cbn in X. injection X as X. apply Q in X. discriminate.
Qed.
Lemma look_ex : forall kd d ks b, entries kd d ks -> StronglySorted key_lt ks -> ((exists x, In x d /\ snd x = Some b) <-> exists k, look d ks k = Some b).
Proof.
  intros kd d ks b E. induction E as [|[v o] k d ks K E IH]; intro S.
  - split; [intros (x & [] & _)|intros (k & H); discriminate].
  - inversion S as [|? ? S1 L]; subst. split.
    + intros (x & [<-|I] & X).
      * exists k. cbn [look]. destruct (key_dec k k); [exact X|congruence].
      * destruct (proj1 (IH S1)) as (j & J); [eauto|]. exists j. cbn [look]. destruct (key_dec j k) as [->|]; [|exact J].
        rewrite look_none in J; [discriminate|]. intro I'. rewrite Forall_forall in L. exact (key_irrefl _ (L _ I')).
    + intros (j & J). cbn [look] in J. destruct (key_dec j k) as [->|N].
      * exists (v, o). split; [left; reflexivity|exact J].
      * destruct (proj2 (IH S1)) as (x & I & X); [eauto|]. exists x. split; [right; exact I|exact X].
Qed.
Lemma hasvalue_ok : forall kd l h st p i v o s, dictionary kd l h st -> dict_arg_is p l -> v_val v = Some o ->
  (exists z, o = OInt z) \/ (exists b, o = OBool b) \/ (exists t, o = OString t) ->
  builtin_pure $"dict-contains-value" [p; P i (OVar v)] s st (fun r => exists b, is_bool r b /\ (b = true <-> exists k, content h k = Some o)).
Proof.
  intros kd l h st p i v o s H (ip & vp & -> & T & V) W S. apply dictionary_holds in H. destruct H as (d & ks & D & (E & SS & F & C)).
  assert (S' : simple o) by (destruct S as [(? & ->)|[(? & ->)|(? & ->)]]; exact I).
  destruct (hasvalue_run d o st F S') as (e & R & Q).
  eapply (pure_intro _ BDictContainsValue) with (r := vbool e); [vm_compute; reflexivity| |].
  - cbn [call_builtin]. unfold b_dicthasvalue. dstep. rewrite V. unfold get_dict. unfold dict_at in D. rewrite D, W, R. reflexivity.
  - exists e. split; [apply vbool_is|]. rewrite Q, (look_ex kd d ks o E SS). split; intros (k & K); exists k; [rewrite C|rewrite <- C]; exact K.
Qed.

(** A value stored under a key and read back. *)
Definition kept (v : variant) : Prop :=
  (exists z, is_int v z) \/ (exists b, is_bool v b) \/ (exists d, is_dbl v d) \/ (exists t, is_str v t) \/ (exists f, is_fn v f) \/
  (exists l, v_ty v = TList /\ v_val v = Some (OList l)).
Lemma set_get : forall kd l h st p q i v k o s s', dictionary kd l h st -> dict_arg_is p l -> key_arg kd q k -> value_arg (P i (OVar v)) o ->
  exists st', builtin_call $"dict-set" [p; q; P i (OVar v)] s st (Val (Some v)) st' /\
    builtin_call $"dict-get" [p; q] s' st' (Val (Some (mkv (type_of_obj o) o))) st'.
Proof.
  intros kd l h st p q i v k o s s' H A K V. destruct (set_ok kd l h st p q i v k o s H A K V) as (st' & C & _ & H').
  exists st'. split; [exact C|]. apply (builtin_calls 0 _ BDictGet); [vm_compute; reflexivity| |discriminate].
  rewrite (get_run _ kd l _ st' p q k s' (dictionary_holds _ _ _ _ H') A K). cbn [content]. destruct (key_dec k k) as [_|]; [|congruence].
  destruct V as (? & ? & _ & _ & N). destruct o; try reflexivity. destruct (N v0); reflexivity.
Qed.
Lemma kept_ok : forall kd l h st p q i v k s s', dictionary kd l h st -> dict_arg_is p l -> key_arg kd q k ->
  (exists z, is_int v z) \/ (exists b, is_bool v b) \/ (exists d, is_dbl v d) \/ (exists t, is_str v t) \/ (exists f, is_fn v f) \/
    (exists m, v_ty v = TList /\ v_val v = Some (OList m)) ->
  exists st', builtin_call $"dict-set" [p; q; P i (OVar v)] s st (Val (Some v)) st' /\
    builtin_pure $"dict-get" [p; q] s' st' (fun r => v_ty r = v_ty v /\ v_val r = v_val v).
Proof.
  intros kd l h st p q i v k s s' H A K V.
  assert (X : exists o, v_val v = Some o /\ (forall w, o <> OVar w) /\ type_of_obj o = v_ty v).
  { repeat destruct V as [V|V]; destruct V as (x & T & V); rewrite T, V; eexists; (split; [reflexivity|]); (split; [discriminate|reflexivity]). }
  destruct X as (o & E & N & T). destruct (set_get kd l h st p q i v k o s s' H A K) as (st' & C & G); [exists i, v; auto|].
  exists st'. split; [exact C|]. eexists. split; [exact G|]. cbn. rewrite T, E. auto.
Qed.
Lemma symbol_to_string : forall kd l h st p q i v k t s s', dictionary kd l h st -> dict_arg_is p l -> key_arg kd q k -> is_sym v t ->
  exists st', builtin_call $"dict-set" [p; q; P i (OVar v)] s st (Val (Some v)) st' /\ builtin_pure $"dict-get" [p; q] s' st' (fun r => is_str r t).
Proof.
  intros kd l h st p q i v k t s s' H A K [T V].
  destruct (set_get kd l h st p q i v k (OString t) s s' H A K) as (st' & C & G); [exists i, v; repeat split; [exact V|discriminate]|].
  exists st'. split; [exact C|]. eexists. split; [exact G|]. split; reflexivity.
Qed.
Lemma nil_to_zero : forall kd l h st p q i t k w s s', dictionary kd l h st -> dict_arg_is p l -> key_arg kd q k ->
  word_means w (TkNil, tk_val t) -> tk_type t = TkNil ->
  exists st', builtin_call $"dict-set" [p; q; P i (OVar (var_of_token t))] s st (Val (Some (var_of_token t))) st' /\ v_ty (var_of_token t) = TNil /\
    builtin_pure $"dict-get" [p; q] s' st' (fun r => is_int r 0).
Proof.
  intros kd l h st p q i t k w s s' H A K W T. assert (V : tk_val t = TvInt 0) by (inversion W; congruence).
  destruct (set_get kd l h st p q i (var_of_token t) k (OInt 0) s s' H A K) as (st' & C & G).
  - exists i, (var_of_token t). split; [reflexivity|]. split; [|discriminate]. cbn. rewrite V. reflexivity.
  - exists st'. split; [exact C|]. split; [cbn; rewrite T; reflexivity|]. eexists. split; [exact G|]. split; reflexivity.
Qed.
Lemma dict_loses_type : forall kd l h st p q i v k m s s', dictionary kd l h st -> dict_arg_is p l -> key_arg kd q k ->
  v_ty v = TNative -> v_val v = Some (ODict m) ->
  exists st', builtin_call $"dict-set" [p; q; P i (OVar v)] s st (Val (Some v)) st' /\
    builtin_pure $"dict-get" [p; q] s' st' (fun r => v_ty r = TUndef /\ v_val r = Some (ODict m)).
Proof.
  intros kd l h st p q i v k m s s' H A K T V.
  destruct (set_get kd l h st p q i v k (ODict m) s s' H A K) as (st' & C & G); [exists i, v; repeat split; [exact V|discriminate]|].
  exists st'. split; [exact C|]. eexists. split; [exact G|]. split; reflexivity.
Qed.
(** A value without content, such as the nil returned by an ignored push. *)
Lemma empty_undefined : forall kd l h st p q i v k s s', dictionary kd l h st -> dict_arg_is p l -> key_arg kd q k -> v_val v = None ->
  exists st', builtin_call $"dict-set" [p; q; P i (OVar v)] s st (Val (Some v)) st' /\ builtin_call $"dict-get" [p; q] s' st' (Undef UBNullDeref) st'.
Proof.
  intros kd l h st p q i v k s s' H (ip & vp & -> & TP & VP) (iq & vq & -> & K) V.
  apply dictionary_holds in H. destruct H as (d & ks & D & I).
  destruct (locate_inv _ _ _ _ vq k st I K) as (d1 & dh & d2 & a & hh & b & -> & -> & E1 & Eh & E2 & A & B & H & L & _).
  set (k' := match hd_error dh with Some (k0, _) => k0 | None => vq end).
  set (st' := with_dicts (PositiveMap.add l (d1 ++ (k', None) :: d2) (st_dicts st)) st). exists st'. split.
  - apply (builtin_calls 0 _ BDictSet); [vm_compute; reflexivity| |discriminate].
    cbn [call_builtin]. unfold b_dictset. dstep. rewrite VP. unfold get_dict. unfold dict_at in D. rewrite D, L. cbn [dp_hit dp_before dp_after].
    unfold put_dict. rewrite V. reflexivity.
  - apply (builtin_calls 0 _ BDictGet); [vm_compute; reflexivity| |discriminate].
    cbn [call_builtin]. unfold b_dictget. dstep. rewrite VP. unfold get_dict, st'. cbn [st_dicts with_dicts]. rewrite PositiveMap.gss.
    fold st'. change ((k', None) :: d2) with ([(k', None)] ++ d2).
    rewrite (locate_ok kd vq k d1 [(k', None)] d2 a [k] b st' K E1).
    + reflexivity.
    + constructor; [|constructor]. cbn [fst]. subst k'. destruct H as [->| ->]; destruct dh as [|[k0 o0] dh]; inversion Eh; subst; assumption.
    + exact E2. + exact A. + exact B. + right; reflexivity.
Qed.

(** ** Keys of different kinds *)
Lemma drop_skip : forall s, skipn (skip_space_count s) s = drop_space s.
Proof.
  intro s. unfold skip_space_count. induction s as [|c s IH]; [reflexivity|]. cbn [drop_space]. destruct (is_space c).
  - assert (L : forall s, (length (drop_space s) <= length s)%nat) by (clear; induction s as [|c s IH]; cbn; [lia|]; destruct (is_space c); cbn; lia).
    specialize (L s). cbn [length]. replace (S (length s) - length (drop_space s))%nat with (S (length s - length (drop_space s))) by lia. exact IH.
  - rewrite Nat.sub_diag. reflexivity.
Qed.
Lemma atoi_stoi : forall s z n, stoi_pos s = Val (z, n) -> atoi s = Val z.
Proof.
  intros s z n. unfold stoi_pos, atoi. rewrite drop_skip. destruct (take_sign (drop_space s)) as [sg sn].
  destruct (take_digits (skipn sn (drop_space s)) 0 0) as [v dn]. destruct dn; [discriminate|].
  destruct (in_int (sg * v)); [|discriminate]. congruence.
Qed.
Lemma number_text_no_nul : forall z, ~ In c_nul (z_to_string z).
Proof.
  intros z I. pose proof (z_to_string_int_text z) as H.
  assert (is_digit c_nul = true \/ c_nul = "-"%char \/ c_nul = "+"%char) as [X|[X|X]]; try discriminate.
  destruct H as [w N D|w N D|w N D].
  - left. rewrite forallb_forall in D. apply D. exact I.
  - destruct I as [<-|I]; [right; right; reflexivity|left]. rewrite forallb_forall in D. apply D. exact I.
  - destruct I as [<-|I]; [right; left; reflexivity|left]. rewrite forallb_forall in D. apply D. exact I.
Qed.
Lemma to_int_text : forall z w st, (-2147483648 <= z <= 2147483647)%Z -> is_str w (z_to_string z) -> to_int w st = Val z.
Proof.
  intros z w st B H. assert (V := string_value_str _ _ st H). destruct H as [T _]. unfold to_int, is_ty. rewrite T, V. tys. cbn [obind].
  rewrite (cstr_id _ (number_text_no_nul z)). eapply atoi_stoi. apply stoi_printed, B.
Qed.
Lemma text_is_number : forall l z o st p i w s, dictionary Ints l [DSet (KInt z) o] st -> dict_arg_is p l ->
  (-2147483648 <= z <= 2147483647)%Z -> is_str w (z_to_string z) ->
  builtin_pure $"dict-contains-key" [p; P i (OVar w)] s st (fun r => is_bool r true).
Proof.
  intros l z o st p i w s H (ip & vp & -> & TP & VP) B W. apply dictionary_holds in H. destruct H as (d & ks & D & I).
  assert (KS : ks = [KInt z]).
  { apply (keys_unique [DSet (KInt z) o]); [eapply dinv_keys; exact I|]. split; [repeat constructor|]. intro k. cbn.
    destruct (key_dec k (KInt z)) as [->|N]; split; try tauto; try discriminate. intros [E|[]]. congruence. }
  subst ks. destruct I as (E & _). inversion E as [|[v o'] ? ? ? K E' ]; subst. inversion E'; subst. cbn [fst key_of] in K.
  eapply (pure_intro _ BDictContainsKey) with (r := vbool true); [vm_compute; reflexivity| |apply vbool_is].
  cbn [call_builtin]. unfold b_dicthaskey. dstep. rewrite VP. unfold get_dict. unfold dict_at in D. rewrite D.
  unfold dict_locate, v_lt, compare_op. destruct K as [TK VK]. destruct W as [TW VW].
  rewrite !(is_ty_of v _ _ TK), !(is_ty_of w _ _ TW). tys. cbn [orb].
  rewrite (to_int_int v z) by (split; assumption). rewrite (to_int_text z w) by (first [exact B|split; assumption]). cbn [obind].
  rewrite Z.ltb_irrefl. reflexivity.
Qed.
Lemma mixed_undefined : exists st, runs false false $"(def d (make-dict)) (dict-set d ""10"" 1) (dict-set d ""9"" 2) (dict-set d 9 3)" [] fresh (Undef UBComparator) st.
Proof. eexists. apply (runs_by 40); [vm_compute; reflexivity|discriminate]. Qed.
Lemma mixed_order : forall s st, builtin_pure $"<" [P 1 (OVar (vint 9)); P 2 (OVar (vstr $"10"))] s st (fun r => is_bool r true) /\
  builtin_pure $"<" [P 1 (OVar (vstr $"10")); P 2 (OVar (vstr $"9"))] s st (fun r => is_bool r true) /\
  builtin_pure $"<" [P 1 (OVar (vint 9)); P 2 (OVar (vstr $"9"))] s st (fun r => is_bool r false).
Proof.
  intros s st. repeat split; (eapply (pure_intro _ BLt); [vm_compute; reflexivity|reflexivity|split; reflexivity]).
Qed.
Lemma mixed_same : exists st r, runs false false $"(def d (make-dict)) (dict-set d 0 1) (dict-contains-key d ""abc"")" [] fresh (Val (Some r)) st /\ is_bool r true.
Proof. eexists. eexists. split; [apply (runs_by 40); [vm_compute; reflexivity|discriminate]|split; reflexivity]. Qed.
