(** Lemmas about the tokenizer model. *)
Require Import String Ascii List ZArith Bool Lia.
Require Import ZifyBool ZifyNat ZifyN.
From Verif Require Import Base CppString Num Token Tokenizer SpecLex.
Import ListNotations.

(** ** Characters *)
Lemma forall_ascii (P : ascii -> bool) :
  forallb P (map ascii_of_nat (seq 0 256)) = true -> forall c, P c = true.
Proof.
  intros H c. rewrite forallb_forall in H. apply H.
  apply in_map_iff. exists (nat_of_ascii c). split.
  - apply ascii_nat_embedding.
  - apply in_seq. pose proof (nat_ascii_bounded c). lia.
Qed.

Ltac ascii_sweep :=
  match goal with
  | |- forall c : ascii, @?P c = true => apply (forall_ascii P); vm_compute; reflexivity
  end.

(** All branch conditions of a plain character. *)
Lemma plain_char_branches_b :
  forall c, (negb (plain_char c) ||
    (is_7bit c && negb (is_space c) && negb (Ascii.eqb c c_bslash) && negb (is_paren c)
     && negb (Ascii.eqb c c_semi) && negb (is_quotemark c) && negb (Ascii.eqb c c_dquote))) = true.
Proof. ascii_sweep. Qed.

Lemma plain_char_branches c : plain_char c = true ->
  is_7bit c = true /\ is_space c = false /\ Ascii.eqb c c_bslash = false /\ is_paren c = false /\
  Ascii.eqb c c_semi = false /\ is_quotemark c = false /\ Ascii.eqb c c_dquote = false.
Proof.
  intro H. pose proof (plain_char_branches_b c) as B. rewrite H in B. cbn [negb orb] in B.
  repeat rewrite andb_true_iff in B. repeat rewrite negb_true_iff in B. tauto.
Qed.

Lemma space_7bit_b : forall c, (negb (is_space c) || is_7bit c) = true.
Proof. ascii_sweep. Qed.
Lemma space_7bit c : is_space c = true -> is_7bit c = true.
Proof. intro H. pose proof (space_7bit_b c) as B. rewrite H in B. exact B. Qed.

(** ** States *)
Definition mk (toks : list token) (cur : str) (start line : Z) (ins sym bs : bool) (pos : Z) : tstate :=
  TState toks cur start line ins sym bs pos 0.

Lemma tok_loop_step off ch rest toks cur start line ins sym bs pos :
  tok_loop off (ch :: rest) (mk toks cur start line ins sym bs pos) =
  (let? s1 := tok_step off (mk toks cur start line ins sym bs pos) ch rest in tok_loop off rest (next_pos s1)).
Proof. reflexivity. Qed.

Lemma tok_loop_skip off : forall a rest s, ts_skip s = length a ->
  tok_loop off (a ++ rest) s =
  tok_loop off rest (TState (ts_toks s) (ts_cur s) (ts_start s) (ts_line s) (ts_instr s) (ts_insym s) (ts_bs s)
                            (ts_pos s + Z.of_nat (length a)) 0).
Proof.
  induction a as [|c a IH]; intros rest s Hs.
  - cbn [length] in *. destruct s; cbn in *. subst. rewrite Z.add_0_r. reflexivity.
  - cbn [app tok_loop]. rewrite Hs. cbn [length]. rewrite IH by (destruct s; reflexivity).
    f_equal. destruct s; cbn. f_equal. lia.
Qed.

(** Reading a word extends the current token. *)
Lemma tok_loop_word off : forall w rest toks cur start line sym pos,
  forallb plain_char w = true ->
  tok_loop off (w ++ rest) (mk toks cur start line false sym false pos) =
  tok_loop off rest (mk toks (cur ++ w) start line false (match w with [] => sym | _ => true end) false
                        (pos + Z.of_nat (length w))).
Proof.
  induction w as [|c w IH]; intros rest toks cur start line sym pos H.
  - cbn [app length]. rewrite app_nil_r, Z.add_0_r. reflexivity.
  - cbn [forallb] in H. apply andb_true_iff in H. destruct H as [Hc Hw].
    destruct (plain_char_branches c Hc) as (h1 & h2 & h3 & h4 & h5 & h6 & h7).
    cbn [app]. rewrite tok_loop_step. unfold tok_step.
    rewrite h1, h2, h3, h4, h5, h6, h7. cbn [negb].
    cbn [ts_insym ts_instr ts_bs mk andb negb obind].
    assert (E : next_pos (set_bs false (app_cur c (if negb sym && true then set_insym true (mk toks cur start line false sym false pos)
                 else mk toks cur start line false sym false pos)))
              = mk toks (cur ++ [c]) start line false true false (pos + 1)).
    { destruct sym; reflexivity. }
    rewrite E. rewrite IH by exact Hw. f_equal. rewrite <- app_assoc. cbn [app].
    destruct w; f_equal; cbn [length]; lia.
Qed.

(** Flushing a pending word. *)
Definition add_tok (k : toktype * tokval) (start stop line : Z) (toks : list token) : list token :=
  Token (fst k) (snd k) start stop line :: toks.

Lemma add_token_ok off text pos s k :
  classify text = Val k ->
  add_token off text pos s =
  Val (TState (Token (fst k) (snd k) (ts_start s - off) (pos - off) (ts_line s) :: ts_toks s)
              [] (pos + 1) (ts_line s) false false (ts_bs s) (ts_pos s) (ts_skip s)).
Proof. intro H. unfold add_token, mk_token. rewrite H. reflexivity. Qed.

(** Blanks between tokens: only the position, the line and the flags move on. *)
Lemma newlines_cons c s : newlines (c :: s) = ((if Ascii.eqb c c_nl then 1 else 0) + newlines s)%Z.
Proof. reflexivity. Qed.

Lemma count_char_app c : forall a b, count_char c (a ++ b) = (count_char c a + count_char c b)%Z.
Proof. induction a as [|x a IH]; intro b; cbn [app count_char]; [lia|]. rewrite IH. lia. Qed.

Lemma newlines_app a b : newlines (a ++ b) = (newlines a + newlines b)%Z.
Proof. apply count_char_app. Qed.

Lemma tok_loop_blanks off : forall b rest toks start line pos,
  is_blank b ->
  exists start', tok_loop off (b ++ rest) (mk toks [] start line false false false pos) =
  tok_loop off rest (mk toks [] start' (line + newlines b) false false false (pos + Z.of_nat (length b))).
Proof.
  induction b as [|c b IH]; intros rest toks start line pos H.
  - exists start. cbn. rewrite !Z.add_0_r. reflexivity.
  - unfold is_blank in H. cbn [forallb] in H. apply andb_true_iff in H. destruct H as [Hc Hb].
    cbn [app]. rewrite tok_loop_step. unfold tok_step. rewrite (space_7bit c Hc), Hc. cbn [negb ts_instr ts_insym mk obind].
    specialize (IH rest toks start (line + (if Ascii.eqb c c_nl then 1 else 0))%Z (pos + 1)%Z Hb).
    destruct IH as [st IH]. exists st.
    assert (E : next_pos (if Ascii.eqb c c_nl then inc_line (set_bs false (mk toks [] start line false false false pos))
                 else set_bs false (mk toks [] start line false false false pos))
              = mk toks [] start (line + (if Ascii.eqb c c_nl then 1 else 0))%Z false false false (pos + 1)).
    { destruct (Ascii.eqb c c_nl); cbn; unfold mk; rewrite ?Z.add_0_r; reflexivity. }
    rewrite E, IH. rewrite newlines_cons. cbn [length]. f_equal. unfold mk. f_equal; lia.
Qed.

(** ** String literals *)
Lemma classify_string v : classify ([c_dquote] ++ v ++ [c_dquote]) = Val (TkString, TvStr v).
Proof.
  unfold classify. cbn [app prefixb]. rewrite Ascii.eqb_refl. cbn [andb].
  do 3 f_equal. cbn [skipn length]. rewrite app_length. cbn [length].
  replace (S (length v + 1) - 2)%nat with (length v) by lia.
  rewrite firstn_app, firstn_all, Nat.sub_diag, firstn_O, app_nil_r. reflexivity.
Qed.

Lemma in_string_char off ch rest toks cur start line sym pos :
  is_7bit ch = true -> ch <> c_dquote -> ch <> c_bslash ->
  tok_step off (mk toks cur start line true sym false pos) ch rest =
  Val (mk toks (cur ++ [ch]) start (line + (if Ascii.eqb ch c_nl then 1 else 0) + (if Ascii.eqb ch c_semi then 1 else 0))%Z
          true sym false pos).
Proof.
  intros h7 hq hb. unfold tok_step. rewrite h7. cbn [negb].
  apply Ascii.eqb_neq in hq. apply Ascii.eqb_neq in hb. rewrite hb, hq.
  destruct (is_space ch) eqn:hs.
  { cbn [ts_instr mk obind].
    assert (Ascii.eqb ch c_semi = false) as ->.
    { destruct (Ascii.eqb ch c_semi) eqn:e; auto. apply Ascii.eqb_eq in e. subst ch. discriminate. }
    destruct (Ascii.eqb ch c_nl); cbn; unfold mk; rewrite ?Z.add_0_r; reflexivity. }
  assert (Ascii.eqb ch c_nl = false) as ->.
  { destruct (Ascii.eqb ch c_nl) eqn:e; auto. apply Ascii.eqb_eq in e. subst ch. discriminate. }
  destruct (is_paren ch) eqn:hp.
  { cbn [ts_instr mk obind].
    assert (Ascii.eqb ch c_semi = false) as ->.
    { destruct (Ascii.eqb ch c_semi) eqn:e; auto. apply Ascii.eqb_eq in e. subst ch. discriminate. }
    cbn; unfold mk; rewrite ?Z.add_0_r; reflexivity. }
  destruct (Ascii.eqb ch c_semi) eqn:hsemi.
  { cbn; unfold mk; rewrite ?Z.add_0_r; reflexivity. }
  destruct (is_quotemark ch) eqn:hqm; cbn; unfold mk; rewrite ?Z.add_0_r; [reflexivity|].
  rewrite andb_false_r. cbn. reflexivity.
Qed.

Lemma in_string_escape off ch v rest toks cur start line sym pos :
  (ch = c_dquote /\ v = c_dquote) \/ (ch = c_bslash /\ v = c_bslash) \/
  (ch = "n"%char /\ v = c_nl) \/ (ch = "t"%char /\ v = c_tab) \/ (ch = "r"%char /\ v = c_cr) ->
  tok_loop off (c_bslash :: ch :: rest) (mk toks cur start line true sym false pos) =
  tok_loop off rest (mk toks (cur ++ [v]) start line true sym false (pos + 2)).
Proof.
  intro H. rewrite tok_loop_step.
  change (tok_step off (mk toks cur start line true sym false pos) c_bslash (ch :: rest))
    with (Val (mk toks cur start line true sym true pos)).
  cbn [obind].
  change (next_pos (mk toks cur start line true sym true pos)) with (mk toks cur start line true sym true (pos + 1)).
  rewrite tok_loop_step.
  assert (E : tok_step off (mk toks cur start line true sym true (pos + 1)) ch rest =
              Val (mk toks (cur ++ [v]) start line true sym false (pos + 1))).
  { decompose [or and] H; subst; unfold tok_step; cbn; rewrite ?andb_false_r; reflexivity. }
  rewrite E. cbn [obind]. f_equal. unfold next_pos, mk. cbn. f_equal. lia.
Qed.

Lemma in_string_idle off ch rest toks cur start line sym pos :
  idle_escape ch = true ->
  tok_loop off (c_bslash :: ch :: rest) (mk toks cur start line true sym false pos) =
  tok_loop off rest (mk toks (cur ++ [ch]) start (line + newlines [ch] + count_char c_semi [ch])%Z true sym false (pos + 2)).
Proof.
  intro H. rewrite tok_loop_step.
  change (tok_step off (mk toks cur start line true sym false pos) c_bslash (ch :: rest))
    with (Val (mk toks cur start line true sym true pos)).
  cbn [obind].
  change (next_pos (mk toks cur start line true sym true pos)) with (mk toks cur start line true sym true (pos + 1)).
  rewrite tok_loop_step.
  assert (E : tok_step off (mk toks cur start line true sym true (pos + 1)) ch rest =
              Val (mk toks (cur ++ [ch]) start (line + newlines [ch] + count_char c_semi [ch])%Z true sym false (pos + 1))).
  { unfold idle_escape in H. apply orb_true_iff in H. destruct H as [Hs|Hs].
    - unfold tok_step. rewrite (space_7bit ch Hs), Hs. cbn [negb ts_instr mk obind].
      assert (Ascii.eqb ch c_semi = false) as Hn.
      { destruct (Ascii.eqb ch c_semi) eqn:e; auto. apply Ascii.eqb_eq in e. subst ch. discriminate. }
      rewrite newlines_cons. cbn [count_char]. rewrite Hn. change (newlines []) with 0%Z.
      destruct (Ascii.eqb ch c_nl); cbn; unfold mk; rewrite ?Z.add_0_r; reflexivity.
    - cbn [existsb] in Hs. rewrite !orb_true_iff, !Ascii.eqb_eq in Hs.
      decompose [or] Hs; subst; try discriminate; unfold tok_step; cbn; unfold mk; rewrite ?Z.add_0_r; reflexivity. }
  rewrite E. cbn [obind]. f_equal. unfold next_pos, mk. cbn [ts_toks ts_cur ts_start ts_line ts_instr ts_insym ts_bs ts_pos ts_skip]. f_equal. lia.
Qed.

Lemma tok_loop_string_body off : forall src val, str_body src val ->
  forall rest toks cur start line sym pos,
  tok_loop off (src ++ rest) (mk toks cur start line true sym false pos) =
  tok_loop off rest (mk toks (cur ++ val) start (line + newlines src + count_char c_semi src)%Z true sym false
                        (pos + Z.of_nat (length src))).
Proof.
  induction 1 as [|c src val h7 hq hb Hb IH|src val Hb IH|src val Hb IH|src val Hb IH|src val Hb IH|src val Hb IH|c src val hi Hb IH];
    intros rest toks cur start line sym pos.
  - cbn. rewrite app_nil_r. rewrite !Z.add_0_r. reflexivity.
  - cbn [app]. rewrite tok_loop_step, in_string_char by assumption. cbn [obind].
    match goal with |- tok_loop _ _ (next_pos (mk ?a ?b ?c ?d ?e ?f ?g ?p)) = _ =>
      change (next_pos (mk a b c d e f g p)) with (mk a b c d e f g (p + 1)) end.
    rewrite IH. rewrite <- app_assoc. cbn [app]. unfold mk. f_equal. f_equal; [|cbn [length]; lia].
    rewrite newlines_cons. cbn [count_char]. lia.
  - cbn [app]. rewrite (in_string_escape off c_dquote c_dquote) by tauto. rewrite IH.
    rewrite <- app_assoc. unfold mk. f_equal. f_equal; cbn [length]; lia.
  - cbn [app]. rewrite (in_string_escape off c_bslash c_bslash) by tauto. rewrite IH.
    rewrite <- app_assoc. unfold mk. f_equal. f_equal; cbn [length]; lia.
  - cbn [app]. rewrite (in_string_escape off "n"%char c_nl) by tauto. rewrite IH.
    rewrite <- app_assoc. unfold mk. f_equal. f_equal; cbn [length]; lia.
  - cbn [app]. rewrite (in_string_escape off "t"%char c_tab) by tauto. rewrite IH.
    rewrite <- app_assoc. unfold mk. f_equal. f_equal; cbn [length]; lia.
  - cbn [app]. rewrite (in_string_escape off "r"%char c_cr) by tauto. rewrite IH.
    rewrite <- app_assoc. unfold mk. f_equal. f_equal; cbn [length]; lia.
  - cbn [app]. rewrite in_string_idle by assumption. rewrite IH.
    rewrite <- app_assoc. unfold mk. f_equal. f_equal; [|cbn [length]; lia].
    rewrite !newlines_cons. cbn [count_char]. change (newlines []) with 0%Z.
    change (Ascii.eqb c_bslash c_nl) with false. change (Ascii.eqb c_bslash c_semi) with false. lia.
Qed.

Lemma tok_loop_string off src val : str_body src val -> forall rest toks start line pos,
  exists start' stop', tok_loop off ([c_dquote] ++ src ++ [c_dquote] ++ rest) (mk toks [] start line false false false pos) =
  tok_loop off rest (mk (Token TkString (TvStr val) start' stop' (line + newlines src + count_char c_semi src) :: toks)
     [] (stop' + off + 1) (line + newlines src + count_char c_semi src)%Z false false false (pos + Z.of_nat (length src) + 2)).
Proof.
  intros Hb rest toks start line pos. cbn [app]. rewrite tok_loop_step.
  change (tok_step off (mk toks [] start line false false false pos) c_dquote (src ++ c_dquote :: rest))
    with (Val (mk toks [] start line true false false pos)). cbn [obind].
  change (next_pos (mk toks [] start line true false false pos)) with (mk toks [] start line true false false (pos + 1)).
  rewrite (tok_loop_string_body off src val Hb). cbn [app]. rewrite tok_loop_step.
  match goal with |- context [mk toks val start ?L true false false ?P] => set (L' := L); set (P' := P) end.
  assert (E : tok_step off (mk toks val start L' true false false P') c_dquote rest =
     (let? s1 := add_token off ([c_dquote] ++ val ++ [c_dquote]) P' (mk toks val start L' true false false P') in
      Val (set_bs false s1))) by reflexivity.
  rewrite E. rewrite (add_token_ok _ _ _ _ _ (classify_string val)). cbn [obind].
  eexists. exists (P' - off)%Z. f_equal. unfold mk, set_bs, next_pos. cbn.
  f_equal; try (subst P'; lia).
Qed.

(** ** Brackets, quote marks *)
Lemma classify_open : classify [c_lpar] = Val (TkListStart, TvStr [c_lpar]). Proof. reflexivity. Qed.
Lemma classify_close : classify [c_rpar] = Val (TkListEnd, TvStr [c_rpar]). Proof. reflexivity. Qed.
Lemma classify_quote : classify [c_quote] = Val (TkQuote, TvStr [c_quote]). Proof. reflexivity. Qed.
Lemma classify_bquote : classify [c_bquote] = Val (TkQuasiQuote, TvStr [c_bquote]). Proof. reflexivity. Qed.
Lemma classify_comma : classify [c_comma] = Val (TkUnQuote, TvStr [c_comma]). Proof. reflexivity. Qed.
Lemma classify_commaat : classify [c_comma; c_at] = Val (TkUnQuoteSplicing, TvStr [c_comma; c_at]). Proof. reflexivity. Qed.

(** A comment text is classified as comment. *)
Lemma classify_comment c : forallb is_7bit c = true -> classify (c_semi :: c) = Val (TkComment, TvStr (c_semi :: c)).
Proof.
  intro H. unfold classify.
  assert (P : forall x y, Ascii.eqb c_semi x = false -> prefixb (x :: y) (c_semi :: c) = false).
  { intros x y E. cbn [prefixb]. rewrite Ascii.eqb_sym in E. rewrite E. reflexivity. }
  assert (Q : forall x y, Ascii.eqb c_semi x = false -> str_eqb (c_semi :: c) (x :: y) = false).
  { intros x y E. cbn [str_eqb]. rewrite E. reflexivity. }
  rewrite P by reflexivity. rewrite !Q by reflexivity.
  assert (SP : skip_space_count (c_semi :: c) = 0%nat).
  { unfold skip_space_count. cbn [drop_space]. change (is_space c_semi) with false. cbn [length]. lia. }
  assert (I : Int32_TryParse (c_semi :: c) = Val None).
  { unfold Int32_TryParse, stoi_pos. rewrite SP. reflexivity. }
  rewrite I. cbn [obind].
  assert (D : Double_TryParse (c_semi :: c) = Val None).
  { unfold Double_TryParse, stod_pos, strtod. rewrite SP. reflexivity. }
  rewrite D. cbn [obind list_ascii_of_string]. rewrite !Q by reflexivity. cbn [orb].
  unfold ToUpper. cbn [forallb]. change (is_7bit c_semi) with true. rewrite H. cbn [andb obind].
  cbn [map]. change (to_upper_c c_semi) with c_semi. reflexivity.
Qed.

Lemma tok_loop_bracket off ch rest toks start line pos :
  is_paren ch = true ->
  exists k start' stop', classify [ch] = Val k /\
  tok_loop off (ch :: rest) (mk toks [] start line false false false pos) =
  tok_loop off rest (mk (Token (fst k) (snd k) start' stop' line :: toks) [] (pos + 1) line false false false (pos + 1)).
Proof.
  intro H. unfold is_paren in H. apply orb_true_iff in H.
  destruct H as [H|H]; apply Ascii.eqb_eq in H; subst ch; do 3 eexists; (split; [reflexivity|]);
    rewrite tok_loop_step; unfold tok_step; cbn [negb is_7bit]; reflexivity.
Qed.

Lemma tok_loop_mark off ch rest toks start line pos :
  is_quotemark ch = true -> prefixb [c_at] rest = false ->
  exists k start' stop', classify [ch] = Val k /\
  tok_loop off (ch :: rest) (mk toks [] start line false false false pos) =
  tok_loop off rest (mk (Token (fst k) (snd k) start' stop' line :: toks) [] (pos + 1) line false false false (pos + 1)).
Proof.
  intros H Hat. unfold is_quotemark in H. rewrite !orb_true_iff in H.
  destruct H as [[H|H]|H]; apply Ascii.eqb_eq in H; subst ch; do 3 eexists; (split; [reflexivity|]);
    rewrite tok_loop_step; unfold tok_step; cbn [ts_instr mk]; rewrite Hat; reflexivity.
Qed.

Lemma tok_loop_commaat off rest toks start line pos :
  exists start' stop',
  tok_loop off (c_comma :: c_at :: rest) (mk toks [] start line false false false pos) =
  tok_loop off rest (mk (Token TkUnQuoteSplicing (TvStr [c_comma; c_at]) start' stop' line :: toks) [] (pos + 2) line false false false (pos + 2)).
Proof.
  exists (start - off)%Z, (pos + 1 - off)%Z. rewrite tok_loop_step.
  assert (E : tok_step off (mk toks [] start line false false false pos) c_comma (c_at :: rest) =
    Val (TState (Token TkUnQuoteSplicing (TvStr [c_comma; c_at]) (start - off) (pos + 1 - off) line :: toks) [] (pos + 1 + 1)
                line false false false pos 1)) by reflexivity.
  rewrite E. cbn [obind tok_loop next_pos ts_skip ts_toks ts_cur ts_start ts_line ts_instr ts_insym ts_bs ts_pos set_skip].
  unfold mk, next_pos, set_skip. cbn [ts_skip ts_toks ts_cur ts_start ts_line ts_instr ts_insym ts_bs ts_pos]. f_equal. f_equal; lia.
Qed.

(** ** Comments *)
Lemma find_newline c rest : ~ In c_nl c -> find [c_nl] (c ++ c_nl :: rest) = Some (length c).
Proof.
  induction c as [|x c IH]; intro H.
  - cbn. reflexivity.
  - cbn [app find]. assert (x <> c_nl) as Hx by (intro; subst; apply H; left; reflexivity).
    cbn [prefixb]. apply not_eq_sym in Hx. apply Ascii.eqb_neq in Hx. rewrite Hx. cbn [andb].
    rewrite IH by (intro; apply H; right; assumption). reflexivity.
Qed.

Lemma tok_loop_comment off c rest toks start line pos :
  c <> [] -> ~ In c_nl c -> forallb is_7bit c = true ->
  exists start' stop' start'',
  tok_loop off ([c_semi] ++ c ++ [c_nl] ++ rest) (mk toks [] start line false false false pos) =
  tok_loop off rest (mk (Token TkComment (TvStr ([c_semi] ++ c ++ [c_nl])) start' stop' line :: toks) [] start'' (line + 1) false false false
     (pos + Z.of_nat (length c) + 2)).
Proof.
  intros Hne Hnl H7. cbn [app]. rewrite tok_loop_step.
  assert (E : tok_step off (mk toks [] start line false false false pos) c_semi (c ++ c_nl :: rest) =
     (let? s1 := process_comment off (c ++ c_nl :: rest) (mk toks [] start line false false false pos) in
      Val (inc_line (set_bs false s1)))) by reflexivity.
  rewrite E. unfold process_comment, get_rest_of_line. rewrite find_newline by assumption.
  destruct c as [|x c]; [congruence|]. cbn [length].
  assert (F : firstn (S (length c) + 1) ((x :: c) ++ c_nl :: rest) = (x :: c) ++ [c_nl]).
  { replace (S (length c) + 1)%nat with (length ((x :: c) ++ [c_nl])) by (rewrite app_length; cbn; lia).
    replace ((x :: c) ++ c_nl :: rest) with (((x :: c) ++ [c_nl]) ++ rest) by (rewrite <- app_assoc; reflexivity).
    rewrite firstn_app, firstn_all, Nat.sub_diag, firstn_O, app_nil_r. reflexivity. }
  rewrite F.
  assert (K : classify (c_semi :: (x :: c) ++ [c_nl]) = Val (TkComment, TvStr (c_semi :: (x :: c) ++ [c_nl]))).
  { apply classify_comment. rewrite forallb_app, H7. reflexivity. }
  rewrite (add_token_ok _ _ _ _ _ K). cbn [obind].
  replace ((x :: c) ++ c_nl :: rest) with (((x :: c) ++ [c_nl]) ++ rest) by (rewrite <- app_assoc; reflexivity).
  rewrite tok_loop_skip.
  - do 3 eexists. f_equal. unfold mk. cbn. f_equal. rewrite app_length. cbn [length]. lia.
  - cbn. rewrite app_length. cbn [length]. lia.
Qed.

(** ** Flushing a pending word before a blank, bracket or semicolon *)
Lemma tok_loop_flush off w k ch rest toks start line pos :
  classify w = Val k -> (is_space ch = true \/ is_paren ch = true \/ ch = c_semi) ->
  tok_loop off (ch :: rest) (mk toks w start line false true false pos) =
  tok_loop off (ch :: rest) (mk (Token (fst k) (snd k) (start - off) (pos - off) line :: toks) [] (pos + 1) line false false false pos).
Proof.
  intros Hk Hc. rewrite !tok_loop_step. f_equal.
  destruct Hc as [Hs|[Hp|Hs]].
  - unfold tok_step. rewrite (space_7bit ch Hs), Hs. cbn [negb ts_instr ts_insym mk].
    cbn [ts_cur ts_pos]. rewrite (add_token_ok _ _ _ _ _ Hk). reflexivity.
  - unfold is_paren in Hp. apply orb_true_iff in Hp. destruct Hp as [H|H]; apply Ascii.eqb_eq in H; subst ch;
      unfold tok_step; cbn [negb is_7bit]; cbn -[classify add_token];
      rewrite (add_token_ok _ _ _ _ _ Hk); reflexivity.
  - subst ch. unfold tok_step. cbn -[classify add_token process_comment].
    rewrite (add_token_ok _ _ _ _ _ Hk). reflexivity.
Qed.

(** ** Whole source texts *)
Definition omap {A B} (f : A -> B) (o : out A) : out B := let? a := o in Val (f a).

Definition run_views (off : Z) (code : str) (s : tstate) : out (list (toktype * tokval * Z)) :=
  let? s1 := tok_loop off code s in
  let? ts := tok_finish off s1 in Val (map tk_view ts).

Definition lx_semis (x : lexeme) : Z :=
  match x with LxString src _ => count_char c_semi src | _ => 0 end.

(** As [lx_means] and [src_means], with the classification of the model for words and with
    semicolons inside string literals counted like newlines. *)
Definition lx_means_c (x : lexeme) (k : toktype * tokval) : Prop :=
  match x with
  | LxWord w => classify w = Val k
  | _ => lx_means x k
  end.

Fixpoint src_means2 (line : Z) (s : source) (ks : list (toktype * tokval * Z)) : Prop :=
  match s, ks with
  | [], [] => True
  | (x, b) :: s', (k, l) :: ks' =>
    lx_means_c x k /\ l = (line + lx_inner_newlines x + lx_semis x)%Z /\
    src_means2 (line + newlines (lx_text x ++ b) + lx_semis x)%Z s' ks'
  | _, _ => False
  end.

Lemma run_views_nil off toks start line pos :
  run_views off [] (mk toks [] start line false false false pos) = Val (map tk_view (rev toks)).
Proof. reflexivity. Qed.

Lemma blank_head b : is_blank b -> b <> [] -> exists c b', b = c :: b' /\ is_space c = true.
Proof.
  intros H Hn. destruct b as [|c b]; [congruence|]. unfold is_blank in H. cbn [forallb] in H.
  apply andb_true_iff in H. destruct H. eauto.
Qed.

Lemma prefix_at_blank b t : is_blank b -> b <> [] -> prefixb [c_at] (b ++ t) = false.
Proof.
  intros H Hn. destruct (blank_head b H Hn) as (c & b' & -> & Hs). cbn [app prefixb].
  destruct (Ascii.eqb c_at c) eqn:E; [|reflexivity]. apply Ascii.eqb_eq in E. subst c. discriminate.
Qed.

Lemma newlines_word w : forallb plain_char w = true -> newlines w = 0%Z.
Proof.
  induction w as [|c w IH]; intro H; [reflexivity|]. cbn [forallb] in H. apply andb_true_iff in H. destruct H as [Hc Hw].
  rewrite newlines_cons, IH by exact Hw. destruct (Ascii.eqb c c_nl) eqn:E; [|reflexivity].
  apply Ascii.eqb_eq in E. subst c. discriminate.
Qed.

Lemma newlines_none c : ~ In c_nl c -> newlines c = 0%Z.
Proof.
  induction c as [|x c IH]; intro H; [reflexivity|]. rewrite newlines_cons, IH by (intro; apply H; right; assumption).
  destruct (Ascii.eqb x c_nl) eqn:E; [|reflexivity]. apply Ascii.eqb_eq in E. subst x. exfalso. apply H. left. reflexivity.
Qed.

Lemma src_head_nonempty x : lx_ok x -> lx_text x <> [].
Proof.
  destruct x; cbn; try discriminate. intros [H _]. exact H.
Qed.

Lemma starts_at_prefix x t : lx_ok x -> starts_at x = false -> prefixb [c_at] (lx_text x ++ t) = false.
Proof.
  intros Hok. unfold starts_at. pose proof (src_head_nonempty x Hok) as Hn.
  destruct (lx_text x) as [|c r]; [congruence|]. cbn [app prefixb]. rewrite Ascii.eqb_sym. intros ->. reflexivity.
Qed.

Lemma run_source off : forall s, src_ok s -> forall line ks, src_means2 line s ks ->
  forall toks start pos,
  run_views off (src_text s) (mk toks [] start line false false false pos) =
  Val (map tk_view (rev toks) ++ ks).
Proof.
  induction s as [|[x b] s IH]; intros Hok line ks Hm toks start pos.
  { cbn in Hm. destruct ks; [|contradiction]. rewrite app_nil_r. reflexivity. }
  cbn [src_ok] in Hok. destruct Hok as (Hx & Hb & Hsep & Hs).
  destruct ks as [|[k l] ks]; [contradiction|]. cbn [src_means2] in Hm. destruct Hm as (Hk & Hl & Hm).
  cbn [src_text].
  (* after the piece: blanks and the rest *)
  assert (Tail : forall t start' pos' line', tk_view t = (k, l) -> line' = (line + newlines (lx_text x) + lx_semis x)%Z ->
     run_views off (b ++ src_text s) (mk (t :: toks) [] start' line' false false false pos') =
     Val (map tk_view (rev toks) ++ (k, l) :: ks)).
  { intros t start' pos' line' Ht ->.
    unfold run_views. destruct (tok_loop_blanks off b (src_text s) (t :: toks) start'
         (line + newlines (lx_text x) + lx_semis x)%Z pos' Hb) as [st E].
    rewrite E. specialize (IH Hs). unfold run_views in IH.
    rewrite IH with (ks := ks).
    - f_equal. cbn [rev]. rewrite map_app, <- app_assoc. cbn [map app]. rewrite Ht. reflexivity.
    - rewrite newlines_app in Hm.
      replace (line + newlines (lx_text x) + lx_semis x + newlines b)%Z
        with (line + (newlines (lx_text x) + newlines b) + lx_semis x)%Z by lia.
      exact Hm. }
  destruct x as [| | | | | |w|src val|c]; cbn [lx_text lx_means_c lx_means lx_inner_newlines lx_semis] in *.
  - (* open *)
    unfold run_views. destruct (tok_loop_bracket off c_lpar (b ++ src_text s) toks start line pos eq_refl) as (k' & s1 & s2 & Ek & E).
    cbn [app]. rewrite E. apply Tail; [|cbn; lia].
    rewrite classify_open in Ek. injection Ek as <-. subst k. cbn. unfold tk_view. cbn. f_equal. lia.
  - unfold run_views. destruct (tok_loop_bracket off c_rpar (b ++ src_text s) toks start line pos eq_refl) as (k' & s1 & s2 & Ek & E).
    cbn [app]. rewrite E. apply Tail; [|cbn; lia].
    rewrite classify_close in Ek. injection Ek as <-. subst k. cbn. unfold tk_view. cbn. f_equal. lia.
  - (* quote *)
    assert (Hat : prefixb [c_at] (b ++ src_text s) = false).
    { destruct b as [|c0 b0].
      - cbn [app]. destruct s as [|[y b'] s']; [reflexivity|]. cbn [src_text]. apply starts_at_prefix.
        + cbn in Hs. tauto.
        + apply Hsep. reflexivity.
      - apply prefix_at_blank; [exact Hb|discriminate]. }
    unfold run_views. destruct (tok_loop_mark off c_quote (b ++ src_text s) toks start line pos eq_refl Hat) as (k' & s1 & s2 & Ek & E).
    cbn [app]. rewrite E. apply Tail; [|cbn; lia].
    rewrite classify_quote in Ek. injection Ek as <-. subst k. cbn. unfold tk_view. cbn. f_equal. lia.
  - assert (Hat : prefixb [c_at] (b ++ src_text s) = false).
    { destruct b as [|c0 b0].
      - cbn [app]. destruct s as [|[y b'] s']; [reflexivity|]. cbn [src_text]. apply starts_at_prefix.
        + cbn in Hs. tauto.
        + apply Hsep. reflexivity.
      - apply prefix_at_blank; [exact Hb|discriminate]. }
    unfold run_views. destruct (tok_loop_mark off c_bquote (b ++ src_text s) toks start line pos eq_refl Hat) as (k' & s1 & s2 & Ek & E).
    cbn [app]. rewrite E. apply Tail; [|cbn; lia].
    rewrite classify_bquote in Ek. injection Ek as <-. subst k. cbn. unfold tk_view. cbn. f_equal. lia.
  - assert (Hat : prefixb [c_at] (b ++ src_text s) = false).
    { destruct b as [|c0 b0].
      - cbn [app]. destruct s as [|[y b'] s']; [reflexivity|]. cbn [src_text]. apply starts_at_prefix.
        + cbn in Hs. tauto.
        + apply Hsep. reflexivity.
      - apply prefix_at_blank; [exact Hb|discriminate]. }
    unfold run_views. destruct (tok_loop_mark off c_comma (b ++ src_text s) toks start line pos eq_refl Hat) as (k' & s1 & s2 & Ek & E).
    cbn [app]. rewrite E. apply Tail; [|cbn; lia].
    rewrite classify_comma in Ek. injection Ek as <-. subst k. cbn. unfold tk_view. cbn. f_equal. lia.
  - unfold run_views. destruct (tok_loop_commaat off (b ++ src_text s) toks start line pos) as (s1 & s2 & E).
    cbn [app]. rewrite E. apply Tail; [|cbn; lia].
    subst k. cbn. unfold tk_view. cbn. f_equal. lia.
  - (* word *)
    destruct Hx as [Hne Hw]. rewrite newlines_word in Tail by exact Hw.
    unfold run_views. rewrite tok_loop_word by exact Hw. destruct w as [|c0 w0]; [congruence|]. cbn [app].
    set (w := c0 :: w0) in *.
    assert (Hflush : forall ch rest', b ++ src_text s = ch :: rest' -> (is_space ch = true \/ is_paren ch = true \/ ch = c_semi) ->
      (let? s1 := tok_loop off (b ++ src_text s) (mk toks w start line false true false (pos + Z.of_nat (length w))) in
       let? ts := tok_finish off s1 in Val (map tk_view ts)) = Val (map tk_view (rev toks) ++ (k, l) :: ks)).
    { intros ch rest' Ebs Hch. rewrite Ebs. rewrite (tok_loop_flush off w k) by assumption. rewrite <- Ebs.
      apply Tail; [|lia]. unfold tk_view. cbn. rewrite <- surjective_pairing. f_equal. lia. }
    destruct b as [|b0 b'].
    + cbn [app]. destruct s as [|[y by_] s'].
      * (* end of text *)
        cbn [src_text tok_loop obind]. unfold tok_finish. cbn [ts_cur mk]. destruct w eqn:Ew; [discriminate|].
        rewrite (add_token_ok _ _ _ _ _ Hk). cbn [obind ts_toks rev].
        cbn in Hm. destruct ks; [|contradiction]. rewrite map_app. cbn [map].
        do 3 f_equal. unfold tk_view. cbn. rewrite <- surjective_pairing. f_equal. lia.
      * specialize (Hsep eq_refl). cbn [src_text] in Hflush |- *.
        destruct Hsep as [->|[->|[c ->]]]; cbn [lx_text app] in *; eapply Hflush; eauto.
    + destruct (blank_head (b0 :: b') Hb) as (ch & r & Eb & Hsp); [discriminate|]. injection Eb as <- <-.
      eapply Hflush; [reflexivity|auto].
  - (* string *)
    unfold run_views. destruct (tok_loop_string off src val Hx (b ++ src_text s) toks start line pos) as (s1 & s2 & E).
    rewrite <- app_assoc, <- app_assoc. rewrite E. apply Tail.
    + subst k l. reflexivity.
    + rewrite !newlines_app. change (newlines [c_dquote]) with 0%Z. lia.
  - (* comment *)
    destruct Hx as (Hne & Hnl & H7).
    unfold run_views. destruct (tok_loop_comment off c (b ++ src_text s) toks start line pos Hne Hnl H7) as (s1 & s2 & s3 & E).
    rewrite <- app_assoc, <- app_assoc. rewrite E. apply Tail.
    + subst k. cbn. unfold tk_view. cbn. f_equal. lia.
    + rewrite !newlines_app. rewrite (newlines_none c Hnl). cbn. lia.
Qed.

Lemma tokenize_views code off :
  omap (map tk_view) (tokenize code off) = run_views off code tinit.
Proof.
  unfold omap, tokenize, run_views. destruct (tok_loop off code tinit); cbn; try reflexivity.
Qed.

Lemma tokenize_source2 off s ks : src_ok s -> src_means2 1 s ks ->
  omap (map tk_view) (tokenize (src_text s) off) = Val ks.
Proof.
  intros H1 H2. rewrite tokenize_views. change tinit with (mk [] [] 0 1 false false false 0).
  rewrite (run_source off s H1 1%Z ks H2). reflexivity.
Qed.

Lemma count_char_none c s : ~ In c s -> count_char c s = 0%Z.
Proof.
  induction s as [|x s IH]; intro H; [reflexivity|]. cbn [count_char].
  rewrite IH by (intro; apply H; right; assumption).
  destruct (Ascii.eqb x c) eqn:E; [|reflexivity]. apply Ascii.eqb_eq in E. subst x. exfalso. apply H. left. reflexivity.
Qed.
