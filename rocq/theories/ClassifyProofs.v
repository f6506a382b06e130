(** Lemmas about the classification of words (Token.cpp). *)
Require Import String Ascii List ZArith Bool Lia.
Require Import ZifyBool ZifyNat ZifyN SpecFloat.
From Verif Require Import Base CppString Num Token Tokenizer SpecLex TokProofs.
Import ListNotations.

Lemma take_digits_all : forall ds rest acc n, forallb is_digit ds = true ->
  match rest with c :: _ => is_digit c = false | [] => True end ->
  take_digits (ds ++ rest) acc n = (dec_value acc ds, (n + length ds)%nat).
Proof.
  induction ds as [|c ds IH]; intros rest acc n H Hr.
  - cbn [app dec_value length]. rewrite Nat.add_0_r. destruct rest as [|c r]; [reflexivity|].
    cbn [take_digits]. rewrite Hr. reflexivity.
  - cbn [forallb] in H. apply andb_true_iff in H. destruct H as [Hc Hd].
    cbn [app take_digits dec_value length]. rewrite Hc. rewrite IH by assumption. unfold digit_val. f_equal. lia.
Qed.

Lemma take_digits_all' ds acc n : forallb is_digit ds = true ->
  take_digits ds acc n = (dec_value acc ds, (n + length ds)%nat).
Proof. intro H. rewrite <- (app_nil_r ds) at 1. apply take_digits_all; [exact H|exact I]. Qed.

Lemma digit_props_b : forall c, (negb (is_digit c) ||
   (negb (is_space c) && negb (Ascii.eqb c c_minus) && negb (Ascii.eqb c c_plus) && plain_char c && negb (Ascii.eqb c c_dquote))) = true.
Proof. ascii_sweep. Qed.
Lemma digit_props c : is_digit c = true ->
  is_space c = false /\ Ascii.eqb c c_minus = false /\ Ascii.eqb c c_plus = false /\ plain_char c = true /\ Ascii.eqb c c_dquote = false.
Proof.
  intro H. pose proof (digit_props_b c) as B. rewrite H in B. cbn [negb orb] in B.
  repeat rewrite andb_true_iff in B. repeat rewrite negb_true_iff in B. tauto.
Qed.

Lemma skip_space_zero c s : is_space c = false -> skip_space_count (c :: s) = 0%nat.
Proof. intro H. unfold skip_space_count. cbn [drop_space]. rewrite H. lia. Qed.

(** std::stoi on a decimal text. *)
Lemma stoi_int_text w z : int_text w z ->
  stoi_pos w = if in_int z then Val (z, length w) else Throw EOutOfRange.
Proof.
  intro H. inversion H as [ds Hne Hd E1 E2|ds Hne Hd E1 E2|ds Hne Hd E1 E2]; subst.
  - destruct w as [|c ds]; [congruence|]. cbn [forallb] in Hd. pose proof Hd as Hd0.
    apply andb_true_iff in Hd. destruct Hd as [Hc Hd].
    destruct (digit_props c Hc) as (h1 & h2 & h3 & _ & _).
    unfold stoi_pos. rewrite skip_space_zero by exact h1. cbn [skipn]. unfold take_sign. rewrite h2, h3. cbn [skipn].
    rewrite take_digits_all' by exact Hd0. cbn [length Nat.add]. rewrite Z.mul_1_l. reflexivity.
  - unfold stoi_pos. rewrite skip_space_zero by reflexivity. cbn [skipn].
    change (take_sign ("+"%char :: ds)) with (1%Z, 1%nat). cbv iota zeta. cbn [skipn].
    rewrite take_digits_all' by exact Hd. destruct ds as [|c ds]; [congruence|]. cbn [length Nat.add]. rewrite Z.mul_1_l. reflexivity.
  - unfold stoi_pos. rewrite skip_space_zero by reflexivity. cbn [skipn].
    change (take_sign ("-"%char :: ds)) with ((-1)%Z, 1%nat). cbv iota zeta. cbn [skipn].
    rewrite take_digits_all' by exact Hd. destruct ds as [|c ds]; [congruence|]. cbn [length Nat.add].
    replace (-1 * dec_value 0 (c :: ds))%Z with (- dec_value 0 (c :: ds))%Z by lia. reflexivity.
Qed.

Lemma classify_not_special_head c w :
  plain_char c = true ->
  classify (c :: w) =
    (let text := c :: w in
    let? i := Int32_TryParse text in
    match i with
    | Some z => Val (TkInt, TvInt z)
    | None =>
      let? d := Double_TryParse text in
      match d with
      | Some f => Val (TkDouble, TvDouble f)
      | None =>
        if str_eqb text $"true" || str_eqb text $"#t" then Val (TkTrue, TvBool true)
        else if str_eqb text $"false" || str_eqb text $"#f" then Val (TkFalse, TvBool false)
        else
          let? up := ToUpper text in
          if str_eqb up $"NIL" then Val (TkNil, TvInt 0)
          else if prefixb [c_semi] text then Val (TkComment, TvStr text)
          else Val (TkSymbol, TvStr text)
      end
    end).
Proof.
  intro H. unfold classify.
  assert (forall x, In x special_chars -> Ascii.eqb c x = false) as N.
  { intros x Hx. destruct (Ascii.eqb c x) eqn:E; [|reflexivity]. apply Ascii.eqb_eq in E. subst x.
    unfold plain_char in H. repeat rewrite andb_true_iff in H. destruct H as [_ H]. apply negb_true_iff in H.
    assert (existsb (Ascii.eqb c) special_chars = true); [|congruence].
    apply existsb_exists. exists c. split; [exact Hx|apply Ascii.eqb_refl]. }
  cbn [prefixb]. rewrite Ascii.eqb_sym, (N c_dquote) by (cbn; tauto). cbn [andb].
  cbn [str_eqb].
  rewrite (N c_quote), (N c_bquote), (N c_comma), (N c_lpar), (N c_rpar) by (cbn; tauto). cbn [andb]. reflexivity.
Qed.

Lemma int_text_head w z : int_text w z -> exists c w', w = c :: w' /\ plain_char c = true.
Proof.
  intro H. destruct H as [ds Hne Hd|ds Hne Hd|ds Hne Hd].
  - destruct ds as [|c ds]; [congruence|]. cbn [forallb] in Hd. apply andb_true_iff in Hd. destruct Hd as [Hc _].
    exists c, ds. split; [reflexivity|]. apply digit_props. exact Hc.
  - eexists _, _. split; reflexivity.
  - eexists _, _. split; reflexivity.
Qed.

Lemma int_text_word w z : int_text w z -> is_word w.
Proof.
  assert (D : forall ds, forallb is_digit ds = true -> forallb plain_char ds = true).
  { intros ds H. rewrite forallb_forall in *. intros x Hx. apply digit_props. apply H. exact Hx. }
  intro H. destruct H as [ds Hne Hd|ds Hne Hd|ds Hne Hd]; split; try discriminate; try assumption.
  - apply D; assumption.
  - cbn [forallb]. rewrite (D ds Hd). reflexivity.
  - cbn [forallb]. rewrite (D ds Hd). reflexivity.
Qed.

Lemma classify_int w z : int_text w z ->
  classify w = if in_int z then Val (TkInt, TvInt z) else Throw EOutOfRange.
Proof.
  intro H. destruct (int_text_head w z H) as (c & w' & E & Hc). rewrite E at 1.
  rewrite classify_not_special_head by exact Hc. cbv zeta. rewrite <- E.
  unfold Int32_TryParse. rewrite (stoi_int_text w z H). destruct (in_int z); [|reflexivity].
  rewrite Nat.ltb_irrefl. reflexivity.
Qed.

(** ** std::to_string(int) *)
Lemma digit_char_spec_b : forallb (fun d => let c := digit_char d in is_digit c && (Z.of_nat (nat_of_ascii c) - 48 =? d)%Z)
   [0;1;2;3;4;5;6;7;8;9]%Z = true.
Proof. vm_compute. reflexivity. Qed.
Lemma digit_char_spec d : (0 <= d < 10)%Z -> is_digit (digit_char d) = true /\ (Z.of_nat (nat_of_ascii (digit_char d)) - 48 = d)%Z.
Proof.
  intro H. pose proof digit_char_spec_b as B. rewrite forallb_forall in B.
  specialize (B d). cbv zeta in B. rewrite andb_true_iff, Z.eqb_eq in B. apply B.
  assert (d = 0 \/ d = 1 \/ d = 2 \/ d = 3 \/ d = 4 \/ d = 5 \/ d = 6 \/ d = 7 \/ d = 8 \/ d = 9)%Z by lia. cbn. intuition.
Qed.

Lemma dec_value_app : forall a b acc, dec_value acc (a ++ b) = dec_value (dec_value acc a) b.
Proof. induction a as [|c a IH]; intros b acc; cbn; [reflexivity|]. apply IH. Qed.

Lemma pos_digits_spec : forall fuel z acc, (0 <= z < 10 ^ Z.of_nat fuel)%Z -> (0 < fuel)%nat ->
  exists ds, pos_digits fuel z acc = ds ++ acc /\ forallb is_digit ds = true /\ ds <> [] /\ dec_value 0 ds = z.
Proof.
  induction fuel as [|fuel IH]; intros z acc Hz Hf; [lia|].
  cbn [pos_digits].
  assert (M : (0 <= z mod 10 < 10)%Z) by (apply Z.mod_pos_bound; lia).
  destruct (digit_char_spec _ M) as [D1 D2].
  destruct (z <? 10)%Z eqn:E.
  - exists [digit_char (z mod 10)]. cbn [app forallb dec_value]. rewrite D1. repeat split; try discriminate.
    rewrite Z.mul_0_l, Z.add_0_l, D2. apply Z.mod_small. lia.
  - assert (Hf2 : (0 < fuel)%nat).
    { destruct fuel; [|lia]. cbn in Hz. lia. }
    destruct (IH (z / 10)%Z (digit_char (z mod 10) :: acc)) as (ds & E1 & E2 & E3 & E4).
    + split; [apply Z.div_pos; lia|]. apply Z.div_lt_upper_bound; [lia|].
      rewrite Nat2Z.inj_succ, Z.pow_succ_r in Hz by lia. lia.
    + exact Hf2.
    + exists (ds ++ [digit_char (z mod 10)]). rewrite E1, <- app_assoc. cbn [app]. split; [reflexivity|].
      rewrite forallb_app, E2. cbn [forallb]. rewrite D1. split; [reflexivity|]. split.
      * destruct ds; discriminate.
      * rewrite dec_value_app, E4. cbn [dec_value]. rewrite D2. rewrite (Z.div_mod z 10) at 3 by lia. lia.
Qed.

Lemma nonneg_to_string_spec z : (0 <= z)%Z ->
  forallb is_digit (nonneg_to_string z) = true /\ nonneg_to_string z <> [] /\ dec_value 0 (nonneg_to_string z) = z.
Proof.
  intro H. unfold nonneg_to_string.
  destruct (pos_digits_spec (S (Z.to_nat (Z.log2 z))) z []) as (ds & E1 & E2 & E3 & E4).
  - split; [exact H|]. rewrite Nat2Z.inj_succ, Z2Nat.id by apply Z.log2_nonneg.
    destruct (Z.eq_dec z 0) as [->|Hz]; [cbn; lia|].
    pose proof (Z.log2_spec z ltac:(lia)) as [_ L].
    eapply Z.lt_le_trans; [exact L|]. apply Z.pow_le_mono_l. pose proof (Z.log2_nonneg z). lia.
  - lia.
  - rewrite E1, app_nil_r. auto.
Qed.

Lemma z_to_string_int_text z : int_text (z_to_string z) z.
Proof.
  unfold z_to_string. destruct (z <? 0)%Z eqn:E.
  - destruct (nonneg_to_string_spec (- z)%Z ltac:(lia)) as (H1 & H2 & H3).
    replace z with (- dec_value 0 (nonneg_to_string (- z)))%Z at 2 by lia.
    apply it_minus; assumption.
  - destruct (nonneg_to_string_spec z ltac:(lia)) as (H1 & H2 & H3).
    rewrite <- H3 at 2. apply it_pos; assumption.
Qed.

Lemma int_text_value w z1 z2 : int_text w z1 -> int_text w z2 -> z1 = z2.
Proof.
  intros H1 H2. destruct H1; inversion H2; subst; try reflexivity; cbn in *; discriminate.
Qed.

(** ** Symbols *)
Lemma to_upper_lower_b : forall c, Ascii.eqb (to_upper_c (to_lower_c c)) (to_upper_c c) = true.
Proof. ascii_sweep. Qed.
Lemma to_upper_lower c : to_upper_c (to_lower_c c) = to_upper_c c.
Proof. apply Ascii.eqb_eq. apply to_upper_lower_b. Qed.

Lemma prefixb_spec : forall p s, prefixb p s = true <-> exists r, s = p ++ r.
Proof.
  induction p as [|x p IH]; intro s; cbn [prefixb].
  - split; [intro H; exists s; reflexivity|reflexivity].
  - destruct s as [|y s].
    + split; [discriminate|]. intros [r H]. discriminate.
    + rewrite andb_true_iff, Ascii.eqb_eq, IH. split.
      * intros [-> [r ->]]. exists r. reflexivity.
      * intros [r H]. injection H as -> ->. split; eauto.
Qed.

Lemma lower_prefix_full p w : lower_prefix p w = true -> length w = length p ->
  map to_upper_c w = map to_upper_c p.
Proof.
  unfold lower_prefix. intros H L. apply prefixb_spec in H. destruct H as [r H].
  assert (r = []) as ->.
  { apply (f_equal (@length _)) in H. rewrite map_length, app_length in H. destruct r; [reflexivity|cbn in H; lia]. }
  rewrite app_nil_r in H. rewrite <- H, map_map. apply map_ext. intro c. symmetry. apply to_upper_lower.
Qed.

Lemma lower_prefix_length p w : lower_prefix p w = true -> (length p <= length w)%nat.
Proof.
  unfold lower_prefix. intro H. apply prefixb_spec in H. destruct H as [r H].
  apply (f_equal (@length _)) in H. rewrite map_length, app_length in H. lia.
Qed.

Lemma plain_7bit : forall w, forallb plain_char w = true -> forallb is_7bit w = true.
Proof.
  intros w H. rewrite forallb_forall in *. intros x Hx. apply (plain_char_branches x). apply H. exact Hx.
Qed.

Lemma number_start_false c : number_start c = false ->
  is_digit c = false /\ Ascii.eqb c c_minus = false /\ Ascii.eqb c c_plus = false /\ Ascii.eqb c "." = false.
Proof.
  unfold number_start. rewrite !orb_false_iff. intros [[[H1 H2] H3] H4].
  repeat split; assumption.
Qed.

Lemma lower_digit_b : forall c, (negb (Ascii.eqb (to_lower_c c) "0") || is_digit c) = true.
Proof. ascii_sweep. Qed.

Lemma Int32_none c w : is_space c = false -> number_start c = false -> Int32_TryParse (c :: w) = Val None.
Proof.
  intros Hs H. destruct (number_start_false c H) as (h1 & h2 & h3 & h4).
  unfold Int32_TryParse, stoi_pos. rewrite skip_space_zero by exact Hs. cbn [skipn]. unfold take_sign. rewrite h2, h3.
  cbn [skipn take_digits]. rewrite h1. reflexivity.
Qed.

Lemma Double_none c w : plain_char c = true -> forallb plain_char w = true -> number_start c = false ->
  ~ In (map to_upper_c (c :: w)) reserved_words ->
  Double_TryParse (c :: w) = Val None.
Proof.
  intros Hp Hw Hn Hr. destruct (number_start_false c Hn) as (h1 & h2 & h3 & h4).
  destruct (plain_char_branches c Hp) as (_ & Hs & _).
  assert (R : forall p f e, lower_prefix p (c :: w) = true -> In (map to_upper_c p) reserved_words ->
     strtod (c :: w) = Some (f, e, length p) -> e = false ->
     Double_TryParse (c :: w) = Val None).
  { intros p f e Hpre Hin Hst ->. unfold Double_TryParse, stod_pos. rewrite Hst.
    pose proof (lower_prefix_length _ _ Hpre) as L.
    destruct (length p <? length (c :: w))%nat eqn:E; [reflexivity|].
    exfalso. apply Hr. rewrite (lower_prefix_full p); [exact Hin|exact Hpre|]. apply Nat.ltb_ge in E. lia. }
  assert (Base : skip_space_count (c :: w) = 0%nat) by (apply skip_space_zero; exact Hs).
  destruct (lower_prefix $"infinity" (c :: w)) eqn:E1.
  { eapply (R $"infinity"); [exact E1|cbn; tauto| |reflexivity].
    unfold strtod. rewrite Base. cbn [skipn]. unfold take_sign. rewrite h2, h3. cbn [skipn]. rewrite E1. reflexivity. }
  destruct (lower_prefix $"inf" (c :: w)) eqn:E2.
  { eapply (R $"inf"); [exact E2|cbn; tauto| |reflexivity].
    unfold strtod. rewrite Base. cbn [skipn]. unfold take_sign. rewrite h2, h3. cbn [skipn]. rewrite E1, E2. reflexivity. }
  destruct (lower_prefix $"nan" (c :: w)) eqn:E3.
  { eapply (R $"nan" S754_nan false); [exact E3|cbn; tauto| |reflexivity].
    unfold strtod. rewrite Base. cbn [skipn]. unfold take_sign. rewrite h2, h3. cbn [skipn]. rewrite E1, E2, E3.
    destruct w as [|w1 [|w2 w3]]; try reflexivity. cbn [skipn].
    destruct w3 as [|w3 w4]; [reflexivity|].
    assert (Ascii.eqb w3 c_lpar = false) as ->; [|reflexivity].
    cbn [forallb] in Hw. rewrite !andb_true_iff in Hw. destruct Hw as (_ & _ & Hw3 & _).
    destruct (plain_char_branches w3 Hw3) as (_ & _ & _ & Hpar & _). unfold is_paren in Hpar.
    apply orb_false_iff in Hpar. tauto. }
  unfold Double_TryParse, stod_pos, strtod. rewrite Base. cbn [skipn]. unfold take_sign. rewrite h2, h3. cbn [skipn].
  rewrite E1, E2, E3.
  assert (lower_prefix $"0x" (c :: w) = false) as ->.
  { unfold lower_prefix. cbn [map list_ascii_of_string prefixb].
    pose proof (lower_digit_b c) as B. rewrite h1, orb_false_r in B. apply negb_true_iff in B.
    rewrite Ascii.eqb_sym. rewrite B. reflexivity. }
  cbn [take_mant]. rewrite h1, h4. cbn [negb andb]. reflexivity.
Qed.

Lemma classify_symbol w : symbol_text w -> classify w = Val (TkSymbol, TvStr w).
Proof.
  intros [[Hne Hw] [->|[->|[Hc Hr]]]].
  - reflexivity.
  - reflexivity.
  - destruct w as [|c w]; [congruence|]. cbn [forallb] in Hw. apply andb_true_iff in Hw. destruct Hw as [Hp Hw].
    rewrite classify_not_special_head by exact Hp. cbv zeta.
    destruct (plain_char_branches c Hp) as (_ & Hs & _ & _ & Hsemi & _).
    rewrite Int32_none by assumption. cbn [obind]. rewrite Double_none by assumption. cbn [obind].
    assert (N : forall t, In (map to_upper_c t) reserved_words -> str_eqb (c :: w) t = false).
    { intros t Ht. apply str_eqb_neq. intros E. apply Hr. rewrite E. exact Ht. }
    rewrite !N by (cbn; tauto). cbn [orb].
    unfold ToUpper. rewrite plain_7bit by (cbn [forallb]; rewrite Hp, Hw; reflexivity). cbn [obind].
    assert (str_eqb (map to_upper_c (c :: w)) $"NIL" = false) as ->.
    { apply str_eqb_neq. intros E. apply Hr. rewrite E. cbn. tauto. }
    cbn [prefixb]. rewrite Ascii.eqb_sym, Hsemi. reflexivity.
Qed.

(** ** Words *)
Lemma upper_inv_n : forall c, (negb (Ascii.eqb (to_upper_c c) "N") || (Ascii.eqb c "n" || Ascii.eqb c "N")) = true.
Proof. ascii_sweep. Qed.
Lemma upper_inv_i : forall c, (negb (Ascii.eqb (to_upper_c c) "I") || (Ascii.eqb c "i" || Ascii.eqb c "I")) = true.
Proof. ascii_sweep. Qed.
Lemma upper_inv_l : forall c, (negb (Ascii.eqb (to_upper_c c) "L") || (Ascii.eqb c "l" || Ascii.eqb c "L")) = true.
Proof. ascii_sweep. Qed.

Lemma classify_nil w : map to_upper_c w = $"NIL" -> classify w = Val (TkNil, TvInt 0).
Proof.
  intro H. destruct w as [|a [|b [|c [|d w]]]]; try discriminate.
  cbn [map list_ascii_of_string] in H. injection H as Ha Hb Hc.
  pose proof (upper_inv_n a) as A. pose proof (upper_inv_i b) as B. pose proof (upper_inv_l c) as C.
  rewrite Ha in A. rewrite Hb in B. rewrite Hc in C. rewrite Ascii.eqb_refl in A, B, C.
  cbn [negb orb] in A, B, C. rewrite orb_true_iff, !Ascii.eqb_eq in A, B, C.
  destruct A as [-> | ->], B as [-> | ->], C as [-> | ->]; vm_compute; reflexivity.
Qed.

Lemma word_means_classify w k : word_means w k -> classify w = Val k.
Proof.
  intro H. destruct H as [w z Hi Hz|w Hw|w Hw|w Hw|w Hw].
  - rewrite (classify_int w z Hi). replace (in_int z) with true; [reflexivity|]. unfold in_int, int_min, int_max. lia.
  - destruct Hw as [-> | ->]; reflexivity.
  - destruct Hw as [-> | ->]; reflexivity.
  - apply classify_nil. exact Hw.
  - apply classify_symbol. exact Hw.
Qed.

Lemma lx_means_classify x k : lx_means x k -> lx_means_c x k.
Proof. destruct x; cbn [lx_means lx_means_c]; auto. apply word_means_classify. Qed.

Lemma means_means2 : forall s line ks, src_no_semi s -> src_means line s ks -> src_means2 line s ks.
Proof.
  induction s as [|[x b] s IH]; intros line ks Hns Hm; destruct ks as [|[k l] ks]; cbn [src_means src_means2] in *; try tauto.
  inversion Hns as [|? ? Hx Hs]; subst. destruct Hm as (H1 & H2 & H3).
  assert (Z0 : lx_semis x = 0%Z).
  { destruct x; try reflexivity. apply count_char_none. exact Hx. }
  rewrite Z0. rewrite !Z.add_0_r. split; [apply lx_means_classify; exact H1|]. split; [exact H2|]. apply IH; assumption.
Qed.

Lemma tokenize_source off s ks : src_ok s -> src_no_semi s -> src_means 1 s ks ->
  omap (map tk_view) (tokenize (src_text s) off) = Val ks.
Proof. intros. apply tokenize_source2; [assumption|]. apply means_means2; assumption. Qed.
