(** Lemmas about the string class of the C++ port. *)
Require Import String Ascii List ZArith Bool Lia.
Require Import ZifyBool ZifyNat ZifyN.
From Verif Require Import Base CppString SpecLex SpecText ClassifyProofs.
Import ListNotations.

(** ** find *)
Lemma prefixb_spec : forall p s, prefixb p s = true <-> exists b, s = p ++ b.
Proof.
  induction p as [|x p IH]; intros s; cbn [prefixb app].
  - split; eauto.
  - destruct s as [|y s]; [split; [discriminate|intros [b Hb]; discriminate]|].
    rewrite andb_true_iff, Ascii.eqb_eq, IH. split.
    + intros [-> [b ->]]. exists b. reflexivity.
    + intros [b [= -> ->]]. eauto.
Qed.
Lemma occurs_at_0 : forall n s, occurs_at n s 0 <-> prefixb n s = true.
Proof.
  intros n s. rewrite prefixb_spec. split.
  - intros (a & b & -> & L). destruct a; [|discriminate]. exists b. reflexivity.
  - intros [b ->]. exists [], b. auto.
Qed.
Lemma occurs_at_S : forall n c s p, occurs_at n (c :: s) (S p) <-> occurs_at n s p.
Proof.
  intros n c s p. split.
  - intros (a & b & E & L). destruct a as [|x a]; [discriminate|]. cbn in E, L. injection E as -> ->. injection L as <-.
    exists a, b. auto.
  - intros (a & b & -> & <-). exists (c :: a), b. auto.
Qed.
Lemma occurs_at_nil : forall n p, occurs_at n [] (S p) <-> False.
Proof. intros n p. split; [|tauto]. intros (a & b & E & L). destruct a; discriminate. Qed.

Lemma find_first : forall n s p, find n s = Some p -> first_at n s p.
Proof.
  intros n. induction s as [|c s IH]; intros p; cbn [find].
  - destruct (prefixb n []) eqn:E; [|discriminate]. intros [= <-]. split; [apply occurs_at_0; exact E|lia].
  - destruct (prefixb n (c :: s)) eqn:E.
    + intros [= <-]. split; [apply occurs_at_0; exact E|lia].
    + destruct (find n s) as [q|]; [|discriminate]. intros [= <-]. destruct (IH q eq_refl) as [O L].
      split; [apply occurs_at_S; exact O|]. intros [|r] H.
      * apply -> occurs_at_0 in H. congruence.
      * apply -> occurs_at_S in H. apply L in H. lia.
Qed.
Lemma find_none : forall n s, find n s = None -> ~ occurs n s.
Proof.
  intros n. induction s as [|c s IH]; cbn [find].
  - destruct (prefixb n []) eqn:E; [discriminate|]. intros _ [[|p] H].
    + apply -> occurs_at_0 in H. congruence.
    + apply -> occurs_at_nil in H. exact H.
  - destruct (prefixb n (c :: s)) eqn:E; [discriminate|].
    destruct (find n s) as [q|]; [discriminate|]. intros _ [[|p] H].
    + apply -> occurs_at_0 in H. congruence.
    + apply -> occurs_at_S in H. apply IH; [reflexivity|]. exists p. exact H.
Qed.
Lemma first_at_unique : forall n s p q, first_at n s p -> first_at n s q -> p = q.
Proof. intros n s p q [O1 L1] [O2 L2]. apply L1 in O2. apply L2 in O1. lia. Qed.
Lemma find_first_iff : forall n s p, find n s = Some p <-> first_at n s p.
Proof.
  intros n s p. split; [apply find_first|]. intro H. destruct (find n s) as [q|] eqn:E.
  - f_equal. eapply first_at_unique; [apply find_first; exact E|exact H].
  - exfalso. apply (find_none n s E). exists p. apply H.
Qed.
Lemma find_none_iff : forall n s, find n s = None <-> ~ occurs n s.
Proof.
  intros n s. split; [apply find_none|]. intro H. destruct (find n s) as [q|] eqn:E; [|reflexivity].
  exfalso. apply H. exists q. apply (find_first n s q E).
Qed.
Lemma occurs_at_length : forall n s p, occurs_at n s p -> (p + length n <= length s)%nat.
Proof. intros n s p (a & b & -> & <-). rewrite !app_length. lia. Qed.

(** ** Replace *)
Lemma find_from_app : forall n a s, find_from n (a ++ s) (length a) = option_map (fun p => (length a + p)%nat) (find n s).
Proof.
  intros n a s. unfold find_from. rewrite app_length. destruct (Nat.ltb_spec (length a + length s) (length a)); [lia|].
  rewrite skipn_app, skipn_all, Nat.sub_diag. reflexivity.
Qed.
Lemma splice_app : forall a s p l r, splice (a ++ s) (length a + p) l r = a ++ splice s p l r.
Proof.
  intros a s p l r. unfold splice. rewrite firstn_app_2, <- app_assoc. do 2 f_equal.
  rewrite <- Nat.add_assoc, skipn_app. rewrite skipn_all2 by lia. cbn. f_equal. f_equal. lia.
Qed.
Lemma splice_mid : forall a n b r, splice (a ++ n ++ b) (length a) (length n) r = a ++ r ++ b.
Proof.
  intros a n b r. rewrite <- (Nat.add_0_r (length a)), splice_app. f_equal. unfold splice.
  cbn [Nat.add firstn app]. f_equal. rewrite skipn_app, skipn_all, Nat.sub_diag. reflexivity.
Qed.

(** The rounds never run out, and the result is as specified. *)
Lemma do_replace_loop_spec : forall n r, n <> [] -> forall fuel a s, (length s < fuel)%nat ->
  exists s', do_replace_loop fuel (a ++ s) n r (length a) = a ++ s' /\ replaced n r s s'.
Proof.
  intros n r N. induction fuel as [|fuel IH]; intros a s L; [lia|].
  cbn [do_replace_loop]. rewrite find_from_app. destruct (find n s) as [p|] eqn:F; cbn [option_map].
  - apply find_first in F. pose proof F as F1. destruct F as [(x & y & -> & <-) M].
    rewrite splice_app, splice_mid. rewrite <- app_length. rewrite !app_assoc, <- app_length.
    destruct (IH ((a ++ x) ++ r) y) as (s' & E & R).
    { rewrite !app_length in L. destruct n; [congruence|]. cbn [length] in L. lia. }
    rewrite E. exists (x ++ r ++ s'). rewrite <- !app_assoc. split; [reflexivity|].
    apply rp_first; assumption.
  - exists s. split; [reflexivity|]. apply rp_none. apply find_none. exact F.
Qed.
Lemma do_replace_spec : forall s n r, n <> [] -> replaced n r s (do_replace s n r).
Proof.
  intros s n r N. unfold do_replace. destruct n as [|c n]; [congruence|].
  destruct (do_replace_loop_spec (c :: n) r N (S (length s)) [] s) as (s' & E & R); [lia|].
  cbn [app length] in E. cbn [length] in *. rewrite E. exact R.
Qed.
Lemma app_same_length : forall A (a a' b b' : list A), length a = length a' -> a ++ b = a' ++ b' -> a = a' /\ b = b'.
Proof.
  intros A. induction a as [|x a IH]; intros [|y a'] b b' L E; try discriminate; cbn in *; [auto|].
  injection E as -> E. injection L as L. destruct (IH a' b b' L E) as [-> ->]. auto.
Qed.
Lemma replaced_unique : forall n r t s1 s2, replaced n r t s1 -> replaced n r t s2 -> s1 = s2.
Proof.
  intros n r t s1 s2 H1. revert s2. induction H1 as [t H|a b b' F H IH]; intros s2 H2.
  - inversion H2 as [t' H'|a b b' F H' E1]; subst; [reflexivity|]. exfalso. apply H. exists (length a). apply F.
  - inversion H2 as [t' H'|a2 b2 b2' F2 H' E1]; subst.
    + exfalso. apply H'. exists (length a). apply F.
    + assert (L : length a2 = length a). { rewrite E1 in F2. eapply first_at_unique; eauto. }
      apply app_same_length in E1; [|exact L]. destruct E1 as [-> E1]. apply app_inv_head in E1. subst b2.
      rewrite (IH b2'); auto.
Qed.
Lemma replaced_self : forall n s s', replaced n n s s' -> s' = s.
Proof. intros n s s' H. induction H as [t H|a b b' F H IH]; [reflexivity|]. rewrite IH. reflexivity. Qed.

Lemma do_replace_fuel_enough : forall s n r fuel, n <> [] -> (length s < fuel)%nat ->
  do_replace_loop fuel s n r 0 = do_replace s n r.
Proof.
  intros s n r fuel N L. destruct (do_replace_loop_spec n r N fuel [] s L) as (s1 & E1 & R1). cbn [app length] in E1.
  rewrite E1. eapply replaced_unique; [exact R1|]. apply do_replace_spec. exact N.
Qed.

Lemma occurs_char_split : forall n c a b, ~ In c n -> occurs n (a ++ c :: b) -> occurs n a \/ occurs n b.
Proof.
  intros n c a b N (p & x & y & E & _). apply app_eq_app in E. destruct E as [l [[-> E]|[-> E]]].
  - left. apply app_eq_app in E. destruct E as [m [[E1 E2]|[E1 E2]]].
    + destruct m as [|d m].
      * rewrite app_nil_r in E1. subst l. exists (length x), x, []. rewrite app_nil_r. auto.
      * cbn in E2. injection E2 as <- E2. exfalso. apply N. rewrite E1. apply in_or_app. right. left. reflexivity.
    + exists (length x), x, m. rewrite E1. auto.
  - destruct l as [|d l].
    + cbn in E. destruct n as [|d n].
      * left. exists 0%nat, [], a. auto.
      * cbn in E. injection E as <- E. exfalso. apply N. left. reflexivity.
    + cbn in E. injection E as <- ->. right. exists (length l), l, y. auto.
Qed.
Lemma occurs_disjoint : forall n r, n <> [] -> r <> [] -> (forall c, In c r -> ~ In c n) ->
  forall a b, occurs n (a ++ r ++ b) -> occurs n a \/ occurs n b.
Proof.
  intros n r N R D a b H. destruct r as [|c r]; [congruence|]. cbn in H.
  apply occurs_char_split in H; [|apply D; left; reflexivity]. destruct H as [H|H]; [auto|right].
  assert (D' : forall c, In c r -> ~ In c n) by (intros; apply D; right; assumption). clear D R. revert H.
  induction r as [|d r IH]; cbn; [auto|]. intro H. change (d :: r ++ b) with ([] ++ d :: (r ++ b)) in H.
  apply occurs_char_split in H; [|apply D'; left; reflexivity]. destruct H as [(p & x & y & E & _)|H].
  - exfalso. destruct x; [|discriminate]. destruct n; [congruence|discriminate].
  - apply IH; auto. intros e He. apply D'. right. exact He.
Qed.
Lemma replaced_gone : forall n r s s', n <> [] -> r <> [] -> (forall c, In c r -> ~ In c n) ->
  replaced n r s s' -> ~ occurs n s'.
Proof.
  intros n r s s' N R D H. induction H as [t H|a b b' F H IH]; [exact H|]. intro O.
  apply occurs_disjoint in O; auto. destruct O as [(p & x & y & E & L)|O]; [|exact (IH O)].
  destruct F as [_ F]. assert (Q : occurs_at n (a ++ n ++ b) p).
  { exists x, (y ++ n ++ b). rewrite E, <- !app_assoc. auto. }
  apply F in Q. apply (f_equal (@length ascii)) in E. rewrite !app_length in E. destruct n; [congruence|]. cbn in E. lia.
Qed.

Lemma cstr_id : forall s, ~ In c_nul s -> cstr s = s.
Proof.
  induction s as [|c s IH]; cbn [cstr]; [auto|]. intro H. destruct (Ascii.eqb_spec c c_nul) as [->|N].
  - exfalso. apply H. left. reflexivity.
  - rewrite IH; [reflexivity|]. intro I. apply H. right. exact I.
Qed.
Lemma Replace_spec : forall s n r, n <> [] -> ~ In c_nul n -> ~ In c_nul r -> replaced n r s (Replace s n r).
Proof. intros s n r N H1 H2. unfold Replace. rewrite !cstr_id by assumption. apply do_replace_spec. exact N. Qed.
Lemma Replace_empty : forall s r, Replace s [] r = s.
Proof. reflexivity. Qed.

(** ** Trim *)
Lemma drop_space_split : forall s, exists a, s = a ++ drop_space s /\ blank_text a.
Proof.
  induction s as [|c s (a & E & B)]; cbn [drop_space]; [exists []; split; reflexivity|].
  destruct (is_space c) eqn:C.
  - exists (c :: a). split; [cbn; rewrite <- E; reflexivity|]. unfold blank_text. cbn. rewrite C. exact B.
  - exists []. split; reflexivity.
Qed.
Lemma drop_space_head : forall s c t, drop_space s = c :: t -> is_space c = false.
Proof.
  induction s as [|d s IH]; cbn [drop_space]; intros c t; [discriminate|].
  destruct (is_space d) eqn:D; [apply IH|]. intros [= -> ->]. exact D.
Qed.
Lemma blank_rev : forall t, blank_text t -> blank_text (rev t).
Proof. unfold blank_text. intros t. rewrite !forallb_forall. intros H x I. apply H. apply in_rev. exact I. Qed.
Lemma drop_space_last : forall l c, is_space (last l c) = false -> l <> [] -> drop_space l <> [].
Proof.
  induction l as [|d l IH]; intros c H N; [congruence|]. cbn [drop_space]. destruct (is_space d) eqn:D; [|discriminate].
  destruct l as [|e l]; [cbn in H; congruence|]. apply (IH c); [exact H|discriminate].
Qed.
Lemma last_rev_head : forall A (c : A) d t, last (rev (c :: t)) d = c.
Proof. intros. cbn. apply last_last. Qed.
Lemma seven_in : forall s c, forallb is_7bit s = true -> In c s -> is_7bit c = true.
Proof. intros s c H I. rewrite forallb_forall in H. auto. Qed.
Lemma Trim_spec : forall t, forallb is_7bit t = true -> exists r, Trim t = Val r /\ trimmed t r.
Proof.
  intros t B7. unfold Trim. destruct (drop_space_split t) as (a & Ea & Ba). pose proof (drop_space_head t) as Hl.
  destruct (drop_space_split (rev (drop_space t))) as (b & Eb & Bb).
  pose proof (drop_space_head (rev (drop_space t))) as Hr. cbv zeta.
  revert Ea Eb Hl Hr. generalize (drop_space (rev (drop_space t))). generalize (drop_space t). intros l r Ea Eb Hl Hr.
  assert (El : l = rev r ++ rev b) by (rewrite <- (rev_involutive l), Eb, rev_app_distr; reflexivity).
  exists (rev r). split.
  - destruct l as [|c l']; [reflexivity|]. destruct r as [|d r']; [reflexivity|].
    assert (I1 : In c t). { rewrite Ea. apply in_or_app. right. left. reflexivity. }
    assert (I2 : In d t).
    { rewrite Ea. apply in_or_app. right. rewrite El. apply in_or_app. left. apply -> in_rev. left. reflexivity. }
    rewrite (seven_in t c B7 I1), (seven_in t d B7 I2). reflexivity.
  - exists a, (rev b). rewrite <- El. repeat split; auto; [apply blank_rev; exact Bb|].
    destruct r as [|c r']; [exact I|]. specialize (Hr c r' eq_refl). pose proof (last_rev_head ascii c c r') as La.
    revert El La. generalize (rev (c :: r')). intros [|d q] El La; [exact I|]. cbn [tight]. split.
    + apply (Hl d (q ++ rev b)). exact El.
    + rewrite <- Hr. f_equal. rewrite <- La. clear. revert d. induction q as [|e q IH]; intro d; [reflexivity|].
      change (last (e :: q) d = last (e :: q) c). clear. revert e. induction q as [|f q IH]; intro e; [reflexivity|]. apply (IH f).
Qed.
Lemma trimmed_unique : forall t r r', trimmed t r -> trimmed t r' -> r = r'.
Proof.
  assert (D : forall a s, blank_text a -> drop_space (a ++ s) = drop_space s).
  { induction a as [|c a IH]; intros s B; [reflexivity|]. unfold blank_text in B. cbn in B. apply andb_prop in B.
    cbn [drop_space app]. destruct B as [-> B]. apply IH. exact B. }
  assert (K : forall s, match s with [] => True | c :: _ => is_space c = false end -> drop_space s = s).
  { intros [|c s] H; cbn [drop_space]; [reflexivity|]. rewrite H. reflexivity. }
  assert (F : forall t r, trimmed t r -> rev (drop_space (rev (drop_space t))) = r).
  { intros t r (a & b & -> & Ba & Bb & T). rewrite D by exact Ba. destruct r as [|c r].
    - cbn [app]. assert (E : drop_space b = []). { rewrite <- (app_nil_r b), D by exact Bb. reflexivity. }
      rewrite E. reflexivity.
    - cbn [tight] in T. destruct T as [T1 T2]. rewrite (K ((c :: r) ++ b)) by exact T1. rewrite rev_app_distr, D.
      + rewrite K; [apply rev_involutive|]. revert T2. clear. intro T2.
        destruct (rev (c :: r)) as [|d q] eqn:E; [exact I|].
        assert (E1 : c :: r = rev q ++ [d]). { rewrite <- (rev_involutive (c :: r)), E. reflexivity. }
        rewrite E1 in T2. rewrite last_last in T2. exact T2.
      + apply blank_rev. exact Bb. }
  intros t r r' H H'. rewrite <- (F t r H), <- (F t r' H'). reflexivity.
Qed.
Lemma trimmed_idem : forall t r, trimmed t r -> trimmed r r.
Proof. intros t r (a & b & _ & _ & _ & T). exists [], []. rewrite app_nil_r. repeat split. exact T. Qed.

(** ** Lines *)
Lemma find_char : forall c s p, find [c] s = Some p -> exists a b, s = a ++ c :: b /\ length a = p /\ ~ In c a.
Proof.
  intros c s p H. apply find_first in H. destruct H as [(a & b & -> & L) M]. exists a, b. split; [reflexivity|]. split; [exact L|].
  intro I. apply in_split in I. destruct I as (x & y & ->). assert (Q : occurs_at [c] ((x ++ c :: y) ++ [c] ++ b) (length x)).
  { exists x, (y ++ [c] ++ b). rewrite <- app_assoc. auto. }
  apply M in Q. rewrite app_length in L. cbn in L. lia.
Qed.
Lemma find_char_none : forall c s, find [c] s = None -> ~ In c s.
Proof.
  intros c s H I. apply find_none in H. apply H. apply in_split in I. destruct I as (x & y & ->). exists (length x), x, y. auto.
Qed.
Lemma split_lines : forall fuel a s, (length s < fuel)%nat ->
  exists ls, split_loop fuel (a ++ s) [c_nl] (length a) (length a) = Val ls /\ ls <> [] /\ join_lines ls = s /\ Forall is_line ls.
Proof.
  induction fuel as [|fuel IH]; intros a s L; [lia|]. cbn [split_loop]. rewrite find_from_app.
  destruct (find [c_nl] s) as [p|] eqn:F; cbn [option_map].
  - apply find_char in F. destruct F as (x & y & -> & <- & N).
    replace (length a + length x - length a)%nat with (length x) by lia.
    assert (S1 : substr (a ++ x ++ c_nl :: y) (length a) (length x) = Val x).
    { unfold substr. rewrite app_length. destruct (Nat.ltb_spec (length a + length (x ++ c_nl :: y)) (length a)); [lia|].
      rewrite skipn_app, skipn_all, Nat.sub_diag. cbn [app skipn]. rewrite firstn_app, firstn_all, Nat.sub_diag. cbn. rewrite app_nil_r.
      reflexivity. }
    rewrite S1. cbn [obind].
    destruct (IH (a ++ x ++ [c_nl]) y) as (ls & E & N1 & J & FL). { rewrite app_length in L. cbn in L. lia. }
    replace (S (length a + length x)) with (length (a ++ x ++ [c_nl])) by (rewrite !app_length; cbn; lia).
    replace (a ++ x ++ c_nl :: y) with ((a ++ x ++ [c_nl]) ++ y) by (rewrite <- !app_assoc; reflexivity).
    rewrite E. cbn [obind]. exists (x :: ls). split; [reflexivity|]. split; [discriminate|]. split; [|constructor; assumption].
    destruct ls as [|l ls]; [congruence|]. rewrite <- J. reflexivity.
  - apply find_char_none in F. unfold substr_from. rewrite app_length.
    destruct (Nat.ltb_spec (length a + length s) (length a)); [lia|]. cbn [obind].
    rewrite skipn_app, skipn_all, Nat.sub_diag. cbn. exists [s]. split; [reflexivity|]. split; [discriminate|]. split; [reflexivity|].
    constructor; [exact F|constructor].
Qed.
Lemma Split_lines : forall t, exists ls, Split t [c_nl] = Val ls /\ ls <> [] /\ join_lines ls = t /\ Forall is_line ls.
Proof. intro t. apply (split_lines (S (S (length t))) [] t). lia. Qed.
Lemma nl_split_unique : forall a b x y, is_line a -> is_line b -> a ++ c_nl :: x = b ++ c_nl :: y -> a = b /\ x = y.
Proof.
  induction a as [|c a IH]; intros [|d b] x y A B E; cbn in E.
  - injection E as ->. auto.
  - injection E as <- _. exfalso. apply B. left. reflexivity.
  - injection E as -> _. exfalso. apply A. left. reflexivity.
  - injection E as -> E. destruct (IH b x y) as [-> ->]; auto.
    + intro I. apply A. right. exact I. + intro I. apply B. right. exact I.
Qed.
Lemma join_lines_inj : forall ls ms, ls <> [] -> ms <> [] -> Forall is_line ls -> Forall is_line ms ->
  join_lines ls = join_lines ms -> ls = ms.
Proof.
  induction ls as [|l ls IH]; intros [|m ms] N1 N2 F1 F2 E; try congruence.
  inversion F1; subst. inversion F2; subst. destruct ls as [|l' ls]; destruct ms as [|m' ms]; cbn [join_lines] in E.
  - congruence.
  - exfalso. subst l. apply H1. apply in_or_app. right. left. reflexivity.
  - exfalso. subst m. apply H3. apply in_or_app. right. left. reflexivity.
  - apply nl_split_unique in E; auto. destruct E as [-> E]. f_equal. apply IH; auto; discriminate.
Qed.
Lemma Split_join : forall ls, ls <> [] -> Forall is_line ls -> Split (join_lines ls) [c_nl] = Val ls.
Proof.
  intros ls N F. destruct (Split_lines (join_lines ls)) as (ms & E & N2 & J & F2). rewrite E. f_equal.
  apply join_lines_inj; auto.
Qed.

(** ** Format *)
Lemma find_skip : forall n t s, (forall c, hd_error n = Some c -> ~ In c t) -> n <> [] ->
  find n (t ++ s) = option_map (fun p => (length t + p)%nat) (find n s).
Proof.
  intros n t s H N. induction t as [|c t IH]; cbn [app length].
  - destruct (find n s); reflexivity.
  - destruct n as [|d n]; [congruence|]. cbn [find]. cbn [prefixb]. destruct (Ascii.eqb_spec d c) as [->|Q].
    + exfalso. apply (H c eq_refl). left. reflexivity.
    + cbn [andb]. rewrite IH; [destruct (find (d :: n) s); reflexivity|]. intros e [= <-] I. apply (H d eq_refl). right. exact I.
Qed.
Lemma find_skip1 : forall n c t s, prefixb n (c :: t ++ s) = false -> (forall d, hd_error n = Some d -> ~ In d t) -> n <> [] ->
  find n (c :: t ++ s) = option_map (fun p => (S (length t) + p)%nat) (find n s).
Proof.
  intros n c t s P H N. cbn [find]. rewrite P, find_skip by assumption. destruct (find n s); reflexivity.
Qed.

Definition add_prefix (t : str) (r : str * bool) : str * bool := (t ++ fst r, snd r).
Lemma ReplaceIn_skip : forall n a t s, find n (t ++ s) = option_map (fun p => (length t + p)%nat) (find n s) ->
  ReplaceIn (t ++ s) n a = add_prefix t (ReplaceIn s n a).
Proof.
  intros n a t s E. unfold ReplaceIn. rewrite E. destruct (find n s) as [p|]; cbn [option_map]; [|reflexivity].
  unfold add_prefix. cbn [fst snd]. rewrite splice_app. reflexivity.
Qed.
Lemma find_from_skip : forall n t s o, find_from n (t ++ s) (length t + o) = option_map (fun p => (length t + p)%nat) (find_from n s o).
Proof.
  intros n t s o. unfold find_from. rewrite app_length.
  destruct (Nat.ltb_spec (length t + length s) (length t + o)); destruct (Nat.ltb_spec (length s) o); try lia; [reflexivity|].
  rewrite skipn_app, skipn_all2 by lia. replace (length t + o - length t)%nat with o by lia. cbn [app].
  destruct (find n (skipn o s)); cbn; [f_equal; lia|reflexivity].
Qed.
Lemma substr_skip : forall t s o l, substr (t ++ s) (length t + o) l = substr s o l.
Proof.
  intros t s o l. unfold substr. rewrite app_length.
  destruct (Nat.ltb_spec (length t + length s) (length t + o)); destruct (Nat.ltb_spec (length s) o); try lia; [reflexivity|].
  rewrite skipn_app, skipn_all2 by lia. replace (length t + o - length t)%nat with o by lia. reflexivity.
Qed.
Lemma Fill_skip : forall n a t s, find n (t ++ s) = option_map (fun p => (length t + p)%nat) (find n s) ->
  ReplaceInWithFill (t ++ s) n a = let? r := ReplaceInWithFill s n a in Val (add_prefix t r).
Proof.
  intros n a t s E. unfold ReplaceInWithFill. rewrite E. destruct (find n s) as [p|]; cbn [option_map]; [|reflexivity].
  replace (S (length t + p)) with (length t + S p)%nat by lia. rewrite find_from_skip.
  destruct (find_from $"}" s (S p)) as [q|]; cbn [option_map]; [|reflexivity].
  replace (length t + p + 3)%nat with (length t + (p + 3))%nat by lia. rewrite substr_skip.
  replace (length t + q - (length t + p) - length n)%nat with (q - p - length n)%nat by lia.
  destruct (substr s (p + 3) (q - p - length n)) as [len| | | |]; cbn [obind]; try reflexivity.
  destruct (stoi len) as [l| | | |]; cbn [obind]; try reflexivity.
  replace (length t + q - (length t + p) + 1)%nat with (q - p + 1)%nat by lia.
  destruct (0 <? l)%Z; cbn [obind]; [|destruct (l =? int_min)%Z; cbn [obind]; [reflexivity|]];
    unfold add_prefix; cbn [fst snd]; rewrite splice_app; reflexivity.
Qed.

Lemma digit_not_open_b : forall c, (negb (is_digit c) || negb (Ascii.eqb c c_open) && negb (Ascii.eqb c c_close)) = true.
Proof. apply TokProofs.forall_ascii. reflexivity. Qed.
Lemma digit_not_brace : forall c, is_digit c = true -> c <> c_open /\ c <> c_close.
Proof.
  intros c H. pose proof (digit_not_open_b c) as B. rewrite H in B. cbn in B. apply andb_prop in B. destruct B as [B1 B2].
  apply negb_true_iff in B1, B2. apply Ascii.eqb_neq in B1, B2. auto.
Qed.
Lemma int_text_no_brace : forall w z, int_text w z -> ~ In c_open w /\ ~ In c_close w.
Proof.
  assert (D : forall ds, forallb is_digit ds = true -> ~ In c_open ds /\ ~ In c_close ds).
  { intros ds H. rewrite forallb_forall in H. split; intro I; apply H in I; apply digit_not_brace in I; tauto. }
  intros w z H. destruct H as [ds N F|ds N F|ds N F]; destruct (D ds F) as [D1 D2]; [auto|..];
    (split; intros [I|I]; [discriminate|auto|discriminate|auto]).
Qed.
Lemma int_text_nonempty : forall w z, int_text w z -> w <> [].
Proof. intros w z H. inversion H; subst; congruence. Qed.

Lemma braces_differ : c_close <> c_open /\ c_comma <> c_open /\ c_comma <> c_close.
Proof. repeat split; discriminate. Qed.

(** The text of a piece has an opening brace at most at its beginning. *)
Lemma piece_shape : forall p, piece_ok p -> ~ In c_open (piece_text p) \/ exists t, piece_text p = c_open :: t /\ ~ In c_open t.
Proof.
  intros [t|k|k wt w] H; cbn [piece_ok piece_text] in *.
  - left. exact H.
  - right. exists [k; c_close]. split; [reflexivity|]. apply digit_not_brace in H.
    pose proof braces_differ as (B1 & B2 & B3). cbn [In]. intuition congruence.
  - right. exists ([k; c_comma] ++ wt ++ [c_close]). split; [reflexivity|]. destruct H as (H & T & _). apply digit_not_brace in H.
    apply int_text_no_brace in T. pose proof braces_differ as (B1 & B2 & B3).
    cbn [In app]. rewrite in_app_iff. cbn [In]. intuition congruence.
Qed.
(** A piece that does not begin with the needle is skipped by the search. *)
Lemma find_piece : forall n p s, piece_ok p -> hd_error n = Some c_open -> prefixb n (piece_text p ++ s) = false \/ ~ In c_open (piece_text p) ->
  find n (piece_text p ++ s) = option_map (fun q => (length (piece_text p) + q)%nat) (find n s).
Proof.
  intros n p s H N Q. assert (NN : n <> []) by (intros ->; discriminate).
  destruct (piece_shape p H) as [S|(t & S & T)].
  - apply find_skip; [|exact NN]. intros c E. rewrite N in E. injection E as <-. exact S.
  - destruct Q as [Q|Q]; [|exfalso; apply Q; rewrite S; left; reflexivity]. rewrite S in *. cbn [app length] in *.
    apply find_skip1; auto. intros c E. rewrite N in E. injection E as <-. exact T.
Qed.

Definition hole_needle (k : ascii) : str := $"{" ++ [k] ++ $"}".
Definition wide_needle (k : ascii) : str := $"{" ++ [k] ++ $",".
Definition has_plain (k : ascii) (p : piece) : bool := match p with PHole j => Ascii.eqb j k | _ => false end.
Definition has_wide (k : ascii) (p : piece) : bool := match p with PWide j _ _ => Ascii.eqb j k | _ => false end.

Lemma ReplaceIn_template : forall k a ps, Forall piece_ok ps ->
  ReplaceIn (template ps) (hole_needle k) a = (template (fill_hole k a ps), existsb (has_plain k) ps).
Proof.
  intros k a. induction ps as [|p ps IH]; intro F; [reflexivity|]. inversion F as [|? ? Hp Hps]; subst.
  specialize (IH Hps). unfold template in *. cbn [flat_map].
  assert (SK : prefixb (hole_needle k) (piece_text p ++ flat_map piece_text ps) = false \/ ~ In c_open (piece_text p) ->
    ReplaceIn (piece_text p ++ flat_map piece_text ps) (hole_needle k) a =
    (piece_text p ++ flat_map piece_text (fill_hole k a ps), existsb (has_plain k) ps)).
  { intro Q. rewrite ReplaceIn_skip by (apply find_piece; auto). rewrite IH. reflexivity. }
  destruct p as [t|j|j wt w]; cbn [fill_hole flat_map existsb has_plain orb] in *.
  - apply SK. right. exact Hp.
  - destruct (Ascii.eqb_spec j k) as [->|N].
    + cbn [orb flat_map]. unfold ReplaceIn. cbn [piece_text app find prefixb hole_needle list_ascii_of_string].
      rewrite !Ascii.eqb_refl. cbn [andb]. reflexivity.
    + cbn [orb flat_map]. apply SK. left. cbn [piece_text app prefixb hole_needle list_ascii_of_string]. rewrite Ascii.eqb_refl.
      destruct (Ascii.eqb_spec k j); [congruence|reflexivity].
  - apply SK. left. cbn [piece_text app prefixb hole_needle list_ascii_of_string]. rewrite Ascii.eqb_refl.
    destruct (Ascii.eqb k j); reflexivity.
Qed.

Lemma padded_eq : forall w a, (0 < w)%Z -> padded w a = blanks (w - Z.of_nat (length a)) ++ a.
Proof. intros w a H. unfold padded, blanks. destruct (Z.ltb_spec 0 w); [|lia]. rewrite Z.abs_eq by lia. reflexivity. Qed.
Lemma padded_eq2 : forall w a, (w <= 0)%Z -> padded w a = a ++ blanks (Z.abs w - Z.of_nat (length a)).
Proof. intros w a H. unfold padded, blanks. destruct (Z.ltb_spec 0 w); [lia|]. reflexivity. Qed.
Lemma Fill_hit : forall k wt w a s, is_digit k = true -> int_text wt w -> (int_min < w <= int_max)%Z ->
  ReplaceInWithFill (piece_text (PWide k wt w) ++ s) (wide_needle k) a = Val (padded w a ++ s, true).
Proof.
  intros k wt w a s K T B. unfold ReplaceInWithFill. cbn [piece_text].
  assert (F : find (wide_needle k) (([c_open; k; c_comma] ++ wt ++ [c_close]) ++ s) = Some 0%nat).
  { apply find_first_iff. split; [|lia]. exists [], ((wt ++ [c_close]) ++ s). auto. }
  rewrite F. rewrite <- !app_assoc.
  assert (G : find_from $"}" ([c_open; k; c_comma] ++ wt ++ [c_close] ++ s) 1 = Some (3 + length wt)%nat).
  { unfold find_from. cbn [length app Nat.ltb Nat.leb]. cbn [skipn].
    change (k :: c_comma :: wt ++ c_close :: s) with ([k; c_comma] ++ wt ++ [c_close] ++ s). rewrite app_assoc.
    rewrite find_skip; [|..]; [|intros c [= <-]|discriminate].
    - rewrite app_length. cbn [length app find prefixb list_ascii_of_string]. rewrite Ascii.eqb_refl. cbn. f_equal. lia.
    - apply digit_not_brace in K. apply int_text_no_brace in T. pose proof braces_differ as (B1 & B2 & B3).
      rewrite in_app_iff. fold c_close. cbn [In]. intuition congruence. }
  rewrite G. cbn [Nat.add]. assert (L : length (wide_needle k) = 3%nat) by reflexivity. rewrite L.
  assert (S1 : substr ([c_open; k; c_comma] ++ wt ++ [c_close] ++ s) 3 (S (S (S (length wt))) - 0 - 3) = Val wt).
  { change 3%nat with (length [c_open; k; c_comma] + 0)%nat at 1. rewrite substr_skip. unfold substr.
    destruct (Nat.ltb_spec (length (wt ++ [c_close] ++ s)) 0); [lia|]. cbn [skipn].
    replace (S (S (S (length wt))) - 0 - 3)%nat with (length wt + 0)%nat by lia. rewrite firstn_app_2. cbn. rewrite app_nil_r. reflexivity. }
  rewrite S1. cbn [obind]. unfold stoi. rewrite (stoi_int_text wt w T).
  assert (R : in_int w = true). { unfold in_int. unfold int_min, int_max in *. lia. }
  rewrite R. cbn [obind fst].
  assert (SP : forall r, splice ([c_open; k; c_comma] ++ wt ++ [c_close] ++ s) 0 (S (S (S (length wt))) - 0 + 1) r = r ++ s).
  { intro r. unfold splice. cbn [firstn app Nat.add]. f_equal.
    change (c_open :: k :: c_comma :: wt ++ c_close :: s) with ([c_open; k; c_comma] ++ wt ++ [c_close] ++ s).
    rewrite !app_assoc. rewrite skipn_app. rewrite skipn_all2; [|rewrite !app_length; cbn; lia].
    rewrite !app_length. cbn [length]. replace (S (S (S (length wt))) - 0 + 1 - (3 + length wt + 1))%nat with 0%nat by lia. reflexivity. }
  rewrite !SP. destruct (Z.ltb_spec 0 w).
  - rewrite padded_eq by lia. reflexivity.
  - destruct (Z.eqb_spec w int_min); [lia|]. rewrite padded_eq2 by lia. reflexivity.
Qed.
Lemma Fill_template : forall k a ps, Forall piece_ok ps ->
  ReplaceInWithFill (template ps) (wide_needle k) a = Val (template (fill_wide k a ps), existsb (has_wide k) ps).
Proof.
  intros k a. induction ps as [|p ps IH]; intro F; [reflexivity|]. inversion F as [|? ? Hp Hps]; subst.
  specialize (IH Hps). unfold template in *. cbn [flat_map].
  assert (SK : prefixb (wide_needle k) (piece_text p ++ flat_map piece_text ps) = false \/ ~ In c_open (piece_text p) ->
    ReplaceInWithFill (piece_text p ++ flat_map piece_text ps) (wide_needle k) a =
    Val (piece_text p ++ flat_map piece_text (fill_wide k a ps), existsb (has_wide k) ps)).
  { intro Q. rewrite Fill_skip by (apply find_piece; auto). rewrite IH. reflexivity. }
  destruct p as [t|j|j wt w]; cbn [fill_wide flat_map existsb has_wide orb] in *.
  - apply SK. right. exact Hp.
  - apply SK. left. cbn [piece_text app prefixb wide_needle list_ascii_of_string]. rewrite Ascii.eqb_refl.
    destruct (Ascii.eqb k j); reflexivity.
  - destruct (Ascii.eqb_spec j k) as [->|N].
    + cbn [orb flat_map]. destruct Hp as (H1 & H2 & H3). apply Fill_hit; assumption.
    + cbn [orb flat_map]. apply SK. left. cbn [piece_text app prefixb wide_needle list_ascii_of_string]. rewrite Ascii.eqb_refl.
      destruct (Ascii.eqb_spec k j); [congruence|reflexivity].
Qed.
Lemma fill_hole_ok : forall k a ps, ~ In c_open a -> Forall piece_ok ps -> Forall piece_ok (fill_hole k a ps).
Proof.
  intros k a ps A F. induction F as [|p ps Hp F IH]; [constructor|]. destruct p as [t|j|j wt w]; cbn [fill_hole].
  - constructor; auto. - destruct (Ascii.eqb j k); constructor; auto. - constructor; auto.
Qed.
Lemma padded_in : forall w a c, In c (padded w a) -> c = c_space \/ In c a.
Proof.
  intros w a c. unfold padded. destruct (0 <? w)%Z; rewrite in_app_iff; intros [H|H]; auto; apply repeat_spec in H; auto.
Qed.
Lemma fill_wide_ok : forall k a ps, ~ In c_open a -> Forall piece_ok ps -> Forall piece_ok (fill_wide k a ps).
Proof.
  intros k a ps A F. induction F as [|p ps Hp F IH]; [constructor|]. destruct p as [t|j|j wt w]; cbn [fill_wide].
  - constructor; auto. - constructor; auto.
  - destruct (Ascii.eqb j k); constructor; auto. intro I. apply padded_in in I. destruct I as [I|I]; [discriminate|auto].
Qed.
Lemma format_round_template : forall err k a ps, Forall piece_ok ps -> a <> NULL_STRING ->
  format_round err k a (template ps) = Val (template (fill_wide k a (fill_hole k a ps))) \/ In c_open a.
Proof.
  intros err k a ps F N. destruct (in_dec Ascii.ascii_dec c_open a) as [I|I]; [auto|left].
  unfold format_round. fold (hole_needle k). fold (wide_needle k). rewrite ReplaceIn_template by exact F.
  assert (E : str_eqb a NULL_STRING = false) by (apply str_eqb_neq; exact N). rewrite E, andb_false_r.
  rewrite Fill_template by (apply fill_hole_ok; assumption). cbn [obind]. rewrite andb_false_r. reflexivity.
Qed.
Lemma fill_hole_none : forall k a ps, existsb (has_plain k) ps = false -> fill_hole k a ps = ps.
Proof.
  intros k a. induction ps as [|p ps IH]; cbn [existsb]; [reflexivity|]. rewrite orb_false_iff. intros [H1 H2].
  destruct p as [t|j|j wt w]; cbn [fill_hole has_plain] in *; [|rewrite H1|]; rewrite IH by exact H2; reflexivity.
Qed.
Lemma fill_wide_none : forall k a ps, existsb (has_wide k) ps = false -> fill_wide k a ps = ps.
Proof.
  intros k a. induction ps as [|p ps IH]; cbn [existsb]; [reflexivity|]. rewrite orb_false_iff. intros [H1 H2].
  destruct p as [t|j|j wt w]; cbn [fill_wide has_wide] in *; [| |rewrite H1]; rewrite IH by exact H2; reflexivity.
Qed.
Lemma no_hole_b : forall k ps, ~ has_hole k ps -> existsb (has_plain k) ps = false /\ existsb (has_wide k) ps = false.
Proof.
  intros k ps H. split.
  - destruct (existsb (has_plain k) ps) eqn:E; [|reflexivity]. apply existsb_exists in E. destruct E as ([t|j|j wt w] & I & E); try discriminate.
    cbn in E. apply Ascii.eqb_eq in E. subst j. exfalso. apply H. left. exact I.
  - destruct (existsb (has_wide k) ps) eqn:E; [|reflexivity]. apply existsb_exists in E. destruct E as ([t|j|j wt w] & I & E); try discriminate.
    cbn in E. apply Ascii.eqb_eq in E. subst j. exfalso. apply H. right. exists wt, w. exact I.
Qed.
Lemma format_round_null : forall err k ps, Forall piece_ok ps -> ~ has_hole k ps ->
  format_round err k NULL_STRING (template ps) = Val (template ps).
Proof.
  intros err k ps F H. apply no_hole_b in H. destruct H as [H1 H2].
  unfold format_round. fold (hole_needle k). fold (wide_needle k). rewrite ReplaceIn_template by exact F. rewrite H1.
  rewrite fill_hole_none by exact H1. cbn [andb]. rewrite Fill_template by exact F. cbn [obind]. rewrite H2.
  rewrite fill_wide_none by exact H2. reflexivity.
Qed.
Lemma format_round_short : forall err k ps, Forall piece_ok ps -> has_hole k ps ->
  format_round err k NULL_STRING (template ps) = Throw (ELispBase err).
Proof.
  intros err k ps F H. unfold format_round. fold (hole_needle k). fold (wide_needle k). rewrite ReplaceIn_template by exact F.
  destruct (existsb (has_plain k) ps) eqn:E; [reflexivity|]. cbn [andb]. rewrite fill_hole_none by exact E.
  rewrite Fill_template by exact F. cbn [obind]. assert (W : existsb (has_wide k) ps = true).
  { destruct H as [H|(wt & w & H)].
    - assert (X : existsb (has_plain k) ps = true) by (apply existsb_exists; exists (PHole k); split; [exact H|apply Ascii.eqb_refl]). congruence.
    - apply existsb_exists. exists (PWide k wt w). split; [exact H|apply Ascii.eqb_refl]. }
  rewrite W. reflexivity.
Qed.
Definition hasb (k : ascii) (ps : list piece) : bool := existsb (fun p => has_plain k p || has_wide k p) ps.
Lemma hasb_spec : forall k ps, hasb k ps = true <-> has_hole k ps.
Proof.
  intros k ps. unfold hasb, has_hole. rewrite existsb_exists. split.
  - intros ([t|j|j wt w] & I & E); cbn in E; try discriminate.
    + rewrite orb_false_r in E. apply Ascii.eqb_eq in E. subst j. auto.
    + apply Ascii.eqb_eq in E. subst j. eauto.
  - intros [I|(wt & w & I)]; eexists; (split; [exact I|]); cbn; rewrite Ascii.eqb_refl; reflexivity.
Qed.
Lemma hasb_fill_hole : forall k j a ps, j <> k -> hasb j (fill_hole k a ps) = hasb j ps.
Proof.
  intros k j a ps N. induction ps as [|p ps IH]; [reflexivity|]. unfold hasb in *.
  destruct p as [t|i|i wt w]; cbn [fill_hole existsb]; [rewrite IH; reflexivity| |rewrite IH; reflexivity].
  destruct (Ascii.eqb_spec i k) as [->|Q]; cbn [existsb]; [|rewrite IH; reflexivity].
  cbn. destruct (Ascii.eqb_spec k j); [congruence|reflexivity].
Qed.
Lemma hasb_fill_wide : forall k j a ps, j <> k -> hasb j (fill_wide k a ps) = hasb j ps.
Proof.
  intros k j a ps N. induction ps as [|p ps IH]; [reflexivity|]. unfold hasb in *.
  destruct p as [t|i|i wt w]; cbn [fill_wide existsb]; [rewrite IH; reflexivity|rewrite IH; reflexivity|].
  destruct (Ascii.eqb_spec i k) as [->|Q]; cbn [existsb]; [|rewrite IH; reflexivity].
  cbn. destruct (Ascii.eqb_spec k j); [congruence|reflexivity].
Qed.
Lemma has_hole_fill : forall k j a ps, j <> k -> (has_hole j (fill_wide k a (fill_hole k a ps)) <-> has_hole j ps).
Proof. intros k j a ps N. rewrite <- !hasb_spec, hasb_fill_wide, hasb_fill_hole by exact N. reflexivity. Qed.

(** The rounds of Format over a list of digits. *)
Fixpoint rounds (err : str) (ks : list ascii) (args : list str) (t : str) : out str :=
  match ks with
  | [] => Val t
  | k :: ks' => let? t' := format_round err k (hd NULL_STRING args) t in rounds err ks' (tl args) t'
  end.
Lemma Format_rounds : forall t args,
  Format t args = rounds ($"Not enough items for format string: " ++ t) digits5 args t.
Proof.
  intros t args. unfold Format, Format5, rounds, digits5. cbn [list_ascii_of_string].
  assert (E : forall m : out str, obind m Val = m) by (intros [| | | |]; reflexivity).
  destruct args as [|a0 [|a1 [|a2 [|a3 [|a4 args]]]]]; cbn [hd tl nth];
    repeat (match goal with |- obind ?m _ = obind ?m _ => destruct m; cbn [obind]; try reflexivity end); rewrite E; reflexivity.
Qed.
Definition fine_arg (a : str) : Prop := ~ In c_open a /\ a <> NULL_STRING.
Lemma rounds_full : forall err ks args ps, NoDup ks -> Forall piece_ok ps -> Forall fine_arg args ->
  (forall k, In k (skipn (length args) ks) -> ~ has_hole k ps) ->
  rounds err ks args (template ps) = Val (template (fill_all ks args ps)).
Proof.
  intros err. induction ks as [|k ks IH]; intros args ps ND F A H; [reflexivity|]. inversion ND; subst. cbn [rounds].
  destruct args as [|a args]; cbn [hd tl fill_all].
  - cbn [length skipn] in H. rewrite format_round_null; [|exact F|apply H; left; reflexivity]. cbn [obind].
    rewrite IH; auto; [destruct ks; reflexivity|]. intros j I. apply H. right. destruct ks; exact I.
  - inversion A as [|? ? [A1 A2] A3]; subst. destruct (format_round_template err k a ps F A2) as [E|E]; [|contradiction].
    rewrite E. cbn [obind]. apply IH; auto.
    + apply fill_wide_ok, fill_hole_ok; assumption.
    + cbn [length skipn] in H. intros j I. rewrite has_hole_fill; [apply H; exact I|].
      intros ->. assert (X : In k ks); [|contradiction]. rewrite <- (firstn_skipn (length args) ks). apply in_or_app. auto.
Qed.
Lemma rounds_short : forall err ks args ps k, NoDup ks -> Forall piece_ok ps -> Forall fine_arg args ->
  In k (skipn (length args) ks) -> has_hole k ps ->
  rounds err ks args (template ps) = Throw (ELispBase err).
Proof.
  intros err. induction ks as [|k ks IH]; intros args ps j ND F A I H; [destruct args; contradiction|]. inversion ND; subst. cbn [rounds].
  destruct args as [|a args]; cbn [hd tl length skipn] in *.
  - destruct (hasb k ps) eqn:B.
    + apply hasb_spec in B. rewrite format_round_short by assumption. reflexivity.
    + assert (NB : ~ has_hole k ps) by (rewrite <- hasb_spec; congruence). rewrite format_round_null by assumption. cbn [obind].
      apply (IH [] ps j); auto. destruct I as [->|I]; [contradiction|exact I].
  - inversion A as [|? ? [A1 A2] A3]; subst. destruct (format_round_template err k a ps F A2) as [E|E]; [|contradiction].
    rewrite E. cbn [obind]. apply (IH args _ j); auto.
    + apply fill_wide_ok, fill_hole_ok; assumption.
    + apply has_hole_fill; [|exact H]. intros ->. assert (X : In k ks); [|contradiction].
      rewrite <- (firstn_skipn (length args) ks). apply in_or_app. auto.
Qed.
Lemma digits5_nodup : NoDup digits5.
Proof. unfold digits5. cbn. repeat constructor; cbn; intuition discriminate. Qed.
Lemma Format_full : forall ps args, Forall piece_ok ps -> Forall fine_arg args ->
  (forall k, In k (skipn (length args) digits5) -> ~ has_hole k ps) ->
  Format (template ps) args = Val (template (fill_all digits5 args ps)).
Proof. intros ps args F A H. rewrite Format_rounds. apply rounds_full; auto. apply digits5_nodup. Qed.
Lemma Format_short : forall ps args k, Forall piece_ok ps -> Forall fine_arg args ->
  In k (skipn (length args) digits5) -> has_hole k ps ->
  Format (template ps) args = Throw (ELispBase ($"Not enough items for format string: " ++ template ps)).
Proof. intros ps args k F A I H. rewrite Format_rounds. apply (rounds_short _ _ _ _ k); auto. apply digits5_nodup. Qed.
