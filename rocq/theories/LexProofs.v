(** More lemmas about the tokenizer: prefixes, relocation, rejected texts, words. *)
Require Import String Ascii List ZArith Bool Lia.
Require Import ZifyBool ZifyNat ZifyN.
From Verif Require Import Base CppString Num Token Tokenizer SpecLex TokProofs ClassifyProofs.
Import ListNotations.

(** ** Well-formed prefixes of an arbitrary text *)
Fixpoint src_line (line : Z) (s : source) : Z :=
  match s with
  | [] => line
  | (x, b) :: s' => src_line (line + newlines (lx_text x ++ b) + lx_semis x)%Z s'
  end.

Lemma run_prefix off : forall s, src_ok s -> src_closed s -> forall line ks, src_means2 line s ks ->
  forall rest toks start pos,
  exists toks' start' pos',
  tok_loop off (src_text s ++ rest) (mk toks [] start line false false false pos) =
  tok_loop off rest (mk (toks' ++ toks) [] start' (src_line line s) false false false pos') /\
  map tk_view (rev toks') = ks.
Proof.
  induction s as [|[x b] s IH]; intros Hok Hcl line ks Hm rest toks start pos.
  { cbn in Hm. destruct ks; [|contradiction]. exists [], start, pos. split; reflexivity. }
  cbn [src_ok] in Hok. destruct Hok as (Hx & Hb & Hsep & Hs).
  destruct ks as [|[k l] ks]; [contradiction|]. cbn [src_means2] in Hm. destruct Hm as (Hk & Hl & Hm).
  assert (Hcl' : src_closed s).
  { destruct s; [exact I|]. exact Hcl. }
  cbn [src_text src_line].
  assert (Tail : forall t start' pos' line', tk_view t = (k, l) -> line' = (line + newlines (lx_text x) + lx_semis x)%Z ->
     exists toks' start'' pos'',
     tok_loop off (b ++ src_text s ++ rest) (mk (t :: toks) [] start' line' false false false pos') =
     tok_loop off rest (mk (toks' ++ toks) [] start'' (src_line (line + newlines (lx_text x ++ b) + lx_semis x) s) false false false pos'') /\
     map tk_view (rev toks') = (k, l) :: ks).
  { intros t start' pos' line' Ht ->.
    destruct (tok_loop_blanks off b (src_text s ++ rest) (t :: toks) start'
         (line + newlines (lx_text x) + lx_semis x)%Z pos' Hb) as [st E].
    rewrite E.
    assert (El : (line + newlines (lx_text x) + lx_semis x + newlines b)%Z
        = (line + newlines (lx_text x ++ b) + lx_semis x)%Z) by (rewrite newlines_app; lia).
    rewrite El.
    destruct (IH Hs Hcl' _ ks Hm rest (t :: toks) st (pos' + Z.of_nat (length b))%Z) as (toks' & s1 & p1 & E1 & E2).
    exists (toks' ++ [t]), s1, p1. rewrite E1. rewrite <- app_assoc. split; [reflexivity|].
    rewrite rev_app_distr. cbn [rev app map]. rewrite Ht, E2. reflexivity. }
  assert (Hat : match x with LxQuote | LxBackquote | LxComma => prefixb [c_at] (b ++ src_text s ++ rest) = false | _ => True end).
  { assert (Hat : match x with LxQuote | LxBackquote | LxComma => b = [] -> s <> [] | _ => True end).
    { destruct x; try exact I; intros -> ->; cbn in Hcl; destruct Hcl as [Hc|Hc]; congruence. }
    destruct b as [|c0 b0].
    - destruct x; try exact I; (destruct s as [|[y b'] s']; [specialize (Hat eq_refl); congruence|]);
      cbn [app src_text]; rewrite <- app_assoc; apply starts_at_prefix;
        try (cbn in Hs; tauto); apply Hsep; reflexivity.
    - destruct x; try exact I; apply prefix_at_blank; try exact Hb; discriminate. }
  rewrite <- !app_assoc.
  destruct x as [| | | | | |w|src val|c]; cbn [lx_text lx_means_c lx_means lx_inner_newlines lx_semis] in *.
  - destruct (tok_loop_bracket off c_lpar (b ++ src_text s ++ rest) toks start line pos eq_refl) as (k' & s1 & s2 & Ek & E).
    cbn [app]. rewrite E. apply Tail; [|cbn; lia].
    rewrite classify_open in Ek. injection Ek as <-. subst k. cbn. unfold tk_view. cbn. f_equal. lia.
  - destruct (tok_loop_bracket off c_rpar (b ++ src_text s ++ rest) toks start line pos eq_refl) as (k' & s1 & s2 & Ek & E).
    cbn [app]. rewrite E. apply Tail; [|cbn; lia].
    rewrite classify_close in Ek. injection Ek as <-. subst k. cbn. unfold tk_view. cbn. f_equal. lia.
  - destruct (tok_loop_mark off c_quote (b ++ src_text s ++ rest) toks start line pos eq_refl Hat) as (k' & s1 & s2 & Ek & E).
    cbn [app]. rewrite E. apply Tail; [|cbn; lia].
    rewrite classify_quote in Ek. injection Ek as <-. subst k. cbn. unfold tk_view. cbn. f_equal. lia.
  - destruct (tok_loop_mark off c_bquote (b ++ src_text s ++ rest) toks start line pos eq_refl Hat) as (k' & s1 & s2 & Ek & E).
    cbn [app]. rewrite E. apply Tail; [|cbn; lia].
    rewrite classify_bquote in Ek. injection Ek as <-. subst k. cbn. unfold tk_view. cbn. f_equal. lia.
  - destruct (tok_loop_mark off c_comma (b ++ src_text s ++ rest) toks start line pos eq_refl Hat) as (k' & s1 & s2 & Ek & E).
    cbn [app]. rewrite E. apply Tail; [|cbn; lia].
    rewrite classify_comma in Ek. injection Ek as <-. subst k. cbn. unfold tk_view. cbn. f_equal. lia.
  - destruct (tok_loop_commaat off (b ++ src_text s ++ rest) toks start line pos) as (s1 & s2 & E).
    cbn [app]. rewrite E. apply Tail; [|cbn; lia].
    subst k. cbn. unfold tk_view. cbn. f_equal. lia.
  - destruct Hx as [Hne Hw]. rewrite newlines_word in Tail by exact Hw.
    rewrite tok_loop_word by exact Hw. destruct w as [|c0 w0]; [congruence|]. cbn [app].
    set (w := c0 :: w0) in *.
    assert (Hflush : forall ch rest', b ++ src_text s ++ rest = ch :: rest' -> (is_space ch = true \/ is_paren ch = true \/ ch = c_semi) ->
      exists toks' start' pos',
       tok_loop off (b ++ src_text s ++ rest) (mk toks w start line false true false (pos + Z.of_nat (length w))) =
       tok_loop off rest (mk (toks' ++ toks) [] start' (src_line (line + newlines (w ++ b) + 0) s) false false false pos') /\
       map tk_view (rev toks') = (k, l) :: ks).
    { intros ch rest' Ebs Hch. rewrite Ebs. rewrite (tok_loop_flush off w k) by assumption. rewrite <- Ebs.
      apply Tail; [|lia]. unfold tk_view. cbn. rewrite <- surjective_pairing. f_equal. lia. }
    destruct b as [|b0 b'].
    + cbn [app]. destruct s as [|[y by_] s'].
      * cbn in Hcl. destruct Hcl as [Hc|Hc]; [exfalso; apply Hc; reflexivity|contradiction].
      * specialize (Hsep eq_refl). cbn [src_text] in Hflush |- *. rewrite <- app_assoc in Hflush |- *.
        destruct Hsep as [->|[->|[c ->]]]; cbn [lx_text app] in *; eapply Hflush; eauto.
    + destruct (blank_head (b0 :: b') Hb) as (ch & r & Eb & Hsp); [discriminate|]. injection Eb as <- <-.
      eapply Hflush; [reflexivity|auto].
  - destruct (tok_loop_string off src val Hx (b ++ src_text s ++ rest) toks start line pos) as (s1 & s2 & E).
    replace (([c_dquote] ++ src ++ [c_dquote]) ++ b ++ src_text s ++ rest)
      with ([c_dquote] ++ src ++ [c_dquote] ++ b ++ src_text s ++ rest) by (rewrite <- !app_assoc; reflexivity).
    rewrite E. apply Tail.
    + subst k l. reflexivity.
    + rewrite !newlines_app. change (newlines [c_dquote]) with 0%Z. lia.
  - destruct Hx as (Hne & Hnl & H7).
    destruct (tok_loop_comment off c (b ++ src_text s ++ rest) toks start line pos Hne Hnl H7) as (s1 & s2 & s3 & E).
    replace (([c_semi] ++ c ++ [c_nl]) ++ b ++ src_text s ++ rest)
      with ([c_semi] ++ c ++ [c_nl] ++ b ++ src_text s ++ rest) by (rewrite <- !app_assoc; reflexivity).
    rewrite E. apply Tail.
    + subst k. cbn. unfold tk_view. cbn. f_equal. lia.
    + rewrite !newlines_app. rewrite (newlines_none c Hnl). cbn. lia.
Qed.

(** ** Relocation: running from a state with other tokens before and another line *)
Record sim (d : Z) (base : list (toktype * tokval * Z)) (s s' : tstate) : Prop := {
  sim_cur : ts_cur s' = ts_cur s;
  sim_instr : ts_instr s' = ts_instr s;
  sim_insym : ts_insym s' = ts_insym s;
  sim_bs : ts_bs s' = ts_bs s;
  sim_skip : ts_skip s' = ts_skip s;
  sim_line : ts_line s' = (ts_line s + d)%Z;
  sim_toks : map tk_view (ts_toks s') = map (shift_line d) (map tk_view (ts_toks s)) ++ base }.

Definition out_rel {A B} (R : A -> B -> Prop) (x : out A) (y : out B) : Prop :=
  match x, y with
  | Val a, Val b => R a b
  | Throw e, Throw e' => e = e'
  | Undef u, Undef u' => u = u'
  | Unmod w, Unmod w' => w = w'
  | NoFuel, NoFuel => True
  | _, _ => False
  end.

Lemma out_rel_bind {A B A' B'} (R : A -> A' -> Prop) (S : B -> B' -> Prop) x y f g :
  out_rel R x y -> (forall a b, R a b -> out_rel S (f a) (g b)) -> out_rel S (obind x f) (obind y g).
Proof. destruct x, y; cbn; intros; try contradiction; subst; auto. Qed.

Lemma out_rel_same {A B A'} (S : B -> A' -> Prop) (x : out A) f g :
  (forall a, out_rel S (f a) (g a)) -> out_rel S (obind x f) (obind x g).
Proof. destruct x; cbn; intros; auto. Qed.

Lemma sim_add d base off text p p' s s' : sim d base s s' ->
  out_rel (sim d base) (add_token off text p s) (add_token off text p' s').
Proof.
  intro H. destruct H. unfold add_token, mk_token. destruct (classify text) as [k|e|u|w|]; cbn; auto.
  destruct k as [kt kv]. split; cbn [ts_cur ts_instr ts_insym ts_bs ts_skip ts_line ts_toks fst snd]; auto.
  cbn [map app]. rewrite sim_toks0. f_equal. unfold tk_view, shift_line.
  cbn [tk_type tk_val tk_line fst snd]. rewrite sim_line0. reflexivity.
Qed.

Ltac sim_destruct H := destruct H as [hcur hinstr hinsym hbs hskip hline htoks].

Lemma sim_set_bs d base b s s' : sim d base s s' -> sim d base (set_bs b s) (set_bs b s').
Proof. intro H. sim_destruct H. split; cbn; auto. Qed.
Lemma sim_inc_line d base s s' : sim d base s s' -> sim d base (inc_line s) (inc_line s').
Proof. intro H. sim_destruct H. split; cbn; auto. lia. Qed.
Lemma sim_app_cur d base c s s' : sim d base s s' -> sim d base (app_cur c s) (app_cur c s').
Proof. intro H. sim_destruct H. split; cbn; auto. rewrite hcur. reflexivity. Qed.
Lemma sim_set_skip d base n s s' : sim d base s s' -> sim d base (set_skip n s) (set_skip n s').
Proof. intro H. sim_destruct H. split; cbn; auto. Qed.
Lemma sim_set_insym d base b s s' : sim d base s s' -> sim d base (set_insym b s) (set_insym b s').
Proof. intro H. sim_destruct H. split; cbn; auto. Qed.
Lemma sim_begin_string d base s s' : sim d base s s' -> sim d base (begin_string s) (begin_string s').
Proof. intro H. sim_destruct H. split; cbn; auto. Qed.
Lemma sim_next_pos d base s s' : sim d base s s' -> sim d base (next_pos s) (next_pos s').
Proof. intro H. sim_destruct H. split; cbn; auto. Qed.

Lemma sim_comment d base off rest s s' : sim d base s s' ->
  out_rel (sim d base) (process_comment off rest s) (process_comment off rest s').
Proof.
  intro H. unfold process_comment. destruct (get_rest_of_line rest) as [c n].
  eapply out_rel_bind; [apply sim_add; exact H|]. intros a b Hab. cbn. apply sim_set_skip. exact Hab.
Qed.

Lemma sim_step d base off ch rest s s' : sim d base s s' ->
  out_rel (sim d base) (tok_step off s ch rest) (tok_step off s' ch rest).
Proof.
  intro H. pose proof H as H0. sim_destruct H. unfold tok_step. rewrite hinstr, hinsym, hbs, hcur.
  destruct (negb (is_7bit ch)); [reflexivity|].
  destruct (is_space ch).
  { eapply out_rel_bind with (R := sim d base).
    - destruct (ts_instr s); [apply sim_app_cur; exact H0|]. destruct (ts_insym s); [apply sim_add; exact H0|exact H0].
    - intros a b Hab. cbn [out_rel]. destruct (Ascii.eqb ch c_nl); [apply sim_inc_line|]; apply sim_set_bs; exact Hab. }
  destruct (Ascii.eqb ch c_bslash).
  { destruct (ts_bs s); cbn [out_rel]; apply sim_set_bs; [apply sim_app_cur|]; exact H0. }
  destruct (is_paren ch).
  { eapply out_rel_bind with (R := sim d base).
    - destruct (ts_instr s); [apply sim_app_cur; exact H0|]. destruct (ts_insym s); [|apply sim_add; exact H0].
      eapply out_rel_bind; [apply sim_add; exact H0|]. intros a b Hab. apply sim_add. exact Hab.
    - intros a b Hab. cbn [out_rel]. apply sim_set_bs; exact Hab. }
  destruct (Ascii.eqb ch c_semi).
  { eapply out_rel_bind with (R := sim d base).
    - destruct (ts_instr s); [apply sim_app_cur; exact H0|]. destruct (ts_insym s); [|apply sim_comment; exact H0].
      eapply out_rel_bind; [apply sim_add; exact H0|]. intros a b Hab. apply sim_comment. exact Hab.
    - intros a b Hab. cbn [out_rel]. apply sim_inc_line, sim_set_bs; exact Hab. }
  destruct (is_quotemark ch).
  { eapply out_rel_bind with (R := sim d base).
    - destruct (ts_instr s); [apply sim_app_cur; exact H0|]. destruct (prefixb [c_at] rest); [|apply sim_add; exact H0].
      eapply out_rel_bind; [apply sim_add; exact H0|]. intros a b Hab. cbn [out_rel]. apply sim_set_skip. exact Hab.
    - intros a b Hab. cbn [out_rel]. apply sim_set_bs; exact Hab. }
  destruct (Ascii.eqb ch c_dquote).
  { eapply out_rel_bind with (R := sim d base).
    - destruct (ts_bs s); [apply sim_app_cur; exact H0|]. destruct (ts_instr s); [apply sim_add; exact H0|].
      cbn [out_rel]. apply sim_begin_string. exact H0.
    - intros a b Hab. cbn [out_rel]. apply sim_set_bs; exact Hab. }
  apply out_rel_same. intro a. cbn [out_rel]. apply sim_set_bs, sim_app_cur.
  destruct (negb (ts_insym s) && negb (ts_instr s)); [apply sim_set_insym|]; exact H0.
Qed.

Lemma sim_loop d base off : forall code s s', sim d base s s' ->
  out_rel (sim d base) (tok_loop off code s) (tok_loop off code s').
Proof.
  induction code as [|ch rest IH]; intros s s' H; cbn [tok_loop]; [exact H|].
  rewrite (sim_skip _ _ _ _ H). destruct (ts_skip s).
  - eapply out_rel_bind; [apply sim_step; exact H|]. intros a b Hab. apply IH, sim_next_pos. exact Hab.
  - apply IH, sim_next_pos, sim_set_skip. exact H.
Qed.

Lemma sim_finish d base off s s' : sim d base s s' ->
  out_rel (fun ts ts' => map tk_view ts' = rev base ++ map (shift_line d) (map tk_view ts))
    (tok_finish off s) (tok_finish off s').
Proof.
  intro H. unfold tok_finish. rewrite (sim_cur _ _ _ _ H). 
  assert (G : forall a b, sim d base a b -> map tk_view (rev (ts_toks b)) = rev base ++ map (shift_line d) (map tk_view (rev (ts_toks a)))).
  { intros a b Hab. rewrite map_rev, (sim_toks _ _ _ _ Hab), rev_app_distr. rewrite !map_rev. reflexivity. }
  destruct (ts_cur s) as [|c cur].
  - cbn [out_rel]. apply G. exact H.
  - eapply out_rel_bind; [apply sim_add; exact H|]. intros a b Hab. cbn [out_rel]. apply G. exact Hab.
Qed.

(** Running any text after a well-formed prefix. *)
Lemma run_views_reloc off text toks start line pos :
  run_views off text (mk toks [] start line false false false pos) =
  omap (fun vs => map tk_view (rev toks) ++ map (shift_line (line - 1)) vs) (omap (map tk_view) (tokenize text off)).
Proof.
  unfold run_views, tokenize.
  assert (H : sim (line - 1) (map tk_view toks) tinit (mk toks [] start line false false false pos)).
  { split; try reflexivity. cbn [ts_line mk tinit]. lia. }
  pose proof (sim_loop _ _ off text _ _ H) as L.
  destruct (tok_loop off text tinit) as [s1|e|u|w|]; destruct (tok_loop off text (mk toks [] start line false false false pos)) as [s2|e'|u'|w'|];
    cbn [out_rel] in L; try contradiction; subst; try reflexivity.
  cbn [obind]. pose proof (sim_finish _ _ off _ _ L) as F.
  destruct (tok_finish off s1) as [t1|e|u|w|]; destruct (tok_finish off s2) as [t2|e'|u'|w'|];
    cbn [out_rel] in F; try contradiction; subst; try reflexivity.
  cbn [omap obind]. rewrite F. rewrite map_rev. reflexivity.
Qed.

Lemma tokenize_prefix off s ks text : src_ok s -> src_closed s -> src_means2 1 s ks ->
  omap (map tk_view) (tokenize (src_text s ++ text) off) =
  omap (fun vs => ks ++ map (shift_line (src_line 1 s - 1)) vs) (omap (map tk_view) (tokenize text off)).
Proof.
  intros H1 H2 H3. rewrite tokenize_views. change tinit with (mk [] [] 0 1 false false false 0).
  unfold run_views. destruct (run_prefix off s H1 H2 1%Z ks H3 text [] 0%Z 0%Z) as (toks & st & p & E & Ev).
  rewrite E. rewrite app_nil_r.
  change (run_views off text (mk toks [] st (src_line 1 s) false false false p) =
    omap (fun vs => ks ++ map (shift_line (src_line 1 s - 1)) vs) (omap (map tk_view) (tokenize text off))).
  rewrite run_views_reloc, Ev. reflexivity.
Qed.

(** Lines after a well-formed prefix. *)
Lemma src_line_spec : forall s line, src_no_semi s -> src_line line s = (line + newlines (src_text s))%Z.
Proof.
  induction s as [|[x b] s IH]; intros line H; cbn [src_line src_text].
  - cbn. lia.
  - inversion H as [|? ? Hx Hs]; subst. rewrite IH by exact Hs. rewrite !newlines_app.
    assert (lx_semis x = 0%Z) as -> ; [|lia].
    destruct x; try reflexivity. apply count_char_none. exact Hx.
Qed.

(** ** Comments *)
Lemma src_app_ok : forall s x b, src_ok s -> src_closed s -> lx_ok x -> is_blank b -> src_ok (s ++ [(x, b)]).
Proof.
  induction s as [|[y c] s IH]; intros x b Hok Hcl Hx Hb.
  - cbn [app src_ok]. split; [exact Hx|]. split; [exact Hb|]. split; [|exact I]. intros _. destruct x; exact I.
  - cbn [app src_ok] in *. destruct Hok as (H1 & H2 & H3 & H4).
    split; [exact H1|]. split; [exact H2|]. split.
    + intros ->. destruct s as [|[z d] s].
      * cbn in Hcl. destruct Hcl as [Hc|Hc]; [congruence|]. destruct y; try contradiction; exact I.
      * cbn [app]. apply H3. reflexivity.
    + apply IH; try assumption. destruct s; [exact I|exact Hcl].
Qed.

Lemma src_app_closed : forall s x b, src_closed [(x, b)] -> src_closed (s ++ [(x, b)]).
Proof.
  induction s as [|[y c] s IH]; intros x b H; [exact H|]. cbn [app].
  specialize (IH x b H). destruct (s ++ [(x, b)]) eqn:E; [destruct s; discriminate|]. exact IH.
Qed.

Lemma src_text_app : forall s1 s2, src_text (s1 ++ s2) = src_text s1 ++ src_text s2.
Proof.
  induction s1 as [|[x b] s1 IH]; intro s2; [reflexivity|]. cbn [app src_text]. rewrite IH, <- !app_assoc. reflexivity.
Qed.

Lemma src_means2_app : forall s1 s2 line k1 k2, src_means2 line s1 k1 -> src_means2 (src_line line s1) s2 k2 ->
  src_means2 line (s1 ++ s2) (k1 ++ k2).
Proof.
  induction s1 as [|[x b] s1 IH]; intros s2 line k1 k2 H1 H2.
  - destruct k1; [|contradiction]. exact H2.
  - destruct k1 as [|[k l] k1]; [contradiction|]. cbn [app src_means2 src_line] in *.
    destruct H1 as (A & B & C). split; [exact A|]. split; [exact B|]. apply IH; assumption.
Qed.

Lemma src_line_app : forall s1 s2 line, src_line line (s1 ++ s2) = src_line (src_line line s1) s2.
Proof. induction s1 as [|[x b] s1 IH]; intros s2 line; [reflexivity|]. cbn [app src_line]. apply IH. Qed.

Lemma shift_shift a b v : shift_line a (shift_line b v) = shift_line (b + a) v.
Proof. unfold shift_line. cbn. f_equal. lia. Qed.

Lemma omap_omap {A B C} (f : A -> B) (g : B -> C) o : omap g (omap f o) = omap (fun x => g (f x)) o.
Proof. destruct o; reflexivity. Qed.
Lemma omap_ext {A B} (f g : A -> B) o : (forall x, f x = g x) -> omap f o = omap g o.
Proof. intro H. destruct o; cbn; try reflexivity. rewrite H. reflexivity. Qed.

(** Inserting a comment line between a well-formed beginning and any rest. *)
Lemma comment_inserted off s ks c text :
  src_ok s -> src_closed s -> src_no_semi s -> src_means 1 s ks -> lx_ok (LxComment c) ->
  let n := newlines (src_text s) in
  omap (map tk_view) (tokenize (src_text s ++ text) off) =
    omap (fun vs => ks ++ map (shift_line n) vs) (omap (map tk_view) (tokenize text off)) /\
  omap (map tk_view) (tokenize (src_text s ++ (lx_text (LxComment c)) ++ text) off) =
    omap (fun vs => ks ++ [(TkComment, TvStr (lx_text (LxComment c)), 1 + n)%Z] ++ map (shift_line (n + 1)) vs)
      (omap (map tk_view) (tokenize text off)).
Proof.
  intros H1 H2 H3 H4 H5 n. pose proof (means_means2 _ _ _ H3 H4) as M.
  assert (L : src_line 1 s = (1 + n)%Z) by (apply src_line_spec; exact H3).
  split.
  - rewrite (tokenize_prefix off s ks text H1 H2 M). rewrite L.
    apply omap_ext. intro vs. do 2 f_equal. f_equal. lia.
  - rewrite app_assoc.
    replace (src_text s ++ lx_text (LxComment c)) with (src_text (s ++ [(LxComment c, [])])).
    2:{ rewrite src_text_app. cbn [src_text]. rewrite !app_nil_r. reflexivity. }
    rewrite (tokenize_prefix off (s ++ [(LxComment c, [])]) (ks ++ [(TkComment, TvStr (lx_text (LxComment c)), 1 + n)%Z]) text).
    + rewrite src_line_app, L. cbn [src_line lx_text lx_semis]. rewrite app_nil_r.
      rewrite !newlines_app. destruct H5 as (_ & Hn & _). rewrite (newlines_none c Hn).
      change (newlines [c_semi]) with 0%Z. change (newlines [c_nl]) with 1%Z.
      apply omap_ext. intro vs. rewrite <- app_assoc. do 3 f_equal. f_equal. lia.
    + apply src_app_ok; try assumption. reflexivity.
    + apply src_app_closed. cbn. tauto.
    + apply src_means2_app; [exact M|]. rewrite L. cbn [src_means2 lx_means_c lx_means lx_inner_newlines lx_semis].
      split; [reflexivity|]. split; [lia|exact I].
Qed.

(** A semicolon directly followed by a newline swallows the rest. *)
Lemma skip_all off : forall a s, ts_skip s = length a ->
  tok_loop off a s = Val (TState (ts_toks s) (ts_cur s) (ts_start s) (ts_line s) (ts_instr s) (ts_insym s) (ts_bs s)
                            (ts_pos s + Z.of_nat (length a)) 0).
Proof.
  intros a s H. pose proof (tok_loop_skip off a [] s H) as E. rewrite app_nil_r in E. rewrite E. reflexivity.
Qed.

Lemma bare_comment off s ks text :
  src_ok s -> src_closed s -> src_no_semi s -> src_means 1 s ks -> forallb is_7bit text = true ->
  omap (map tk_view) (tokenize (src_text s ++ [c_semi; c_nl] ++ text) off) =
  Val (ks ++ [(TkComment, TvStr ([c_semi; c_nl] ++ text), 1 + newlines (src_text s))%Z]).
Proof.
  intros H1 H2 H3 H4 H5. pose proof (means_means2 _ _ _ H3 H4) as M.
  rewrite (tokenize_prefix off s ks _ H1 H2 M). rewrite (src_line_spec s 1 H3).
  assert (E : tokenize ([c_semi; c_nl] ++ text) off =
     Val [Token TkComment (TvStr ([c_semi; c_nl] ++ text)) (0 - off) (0 - off) 1]).
  { unfold tokenize. change tinit with (mk [] [] 0 1 false false false 0).
    change ([c_semi; c_nl] ++ text) with (c_semi :: (c_nl :: text)) at 1. rewrite tok_loop_step.
    assert (S : tok_step off (mk [] [] 0 1 false false false 0) c_semi (c_nl :: text) =
       (let? s1 := process_comment off (c_nl :: text) (mk [] [] 0 1 false false false 0) in Val (inc_line (set_bs false s1)))) by reflexivity.
    rewrite S. unfold process_comment. change (get_rest_of_line (c_nl :: text)) with (c_nl :: text, length (c_nl :: text)).
    cbv iota beta.
    assert (K : classify (c_semi :: c_nl :: text) = Val (TkComment, TvStr (c_semi :: c_nl :: text))).
    { apply classify_comment. cbn [forallb]. rewrite H5. reflexivity. }
    rewrite (add_token_ok _ _ _ _ _ K). cbn [obind]. rewrite skip_all by reflexivity. reflexivity. }
  rewrite E. cbn [omap obind map]. do 2 f_equal. unfold tk_view, shift_line.
  cbn [tk_type tk_val tk_line fst snd]. f_equal. f_equal. lia.
Qed.

(** ** Invalid escapes *)
Lemma bad_escape_msg : forall c, bad_escape c = true ->
  process_escape c = Throw (ELispBase ($"Invalid character after backslash " ++ [c])).
Proof.
  intros c H. unfold process_escape.
  unfold bad_escape in H. apply andb_true_iff in H. destruct H as [Hp Hn]. apply negb_true_iff in Hn.
  cbn [existsb list_ascii_of_string] in Hn. rewrite !orb_false_iff in Hn. destruct Hn as (h1 & h2 & h3 & _).
  rewrite h1, h2, h3. destruct (plain_char_branches c Hp) as (_ & _ & hb & _). rewrite hb.
  assert (F : forall c, (match Format $"Invalid character after backslash {0}" [[c]] with
     Val m => str_eqb m ($"Invalid character after backslash " ++ [c]) | _ => false end) = true) by ascii_sweep.
  specialize (F c). destruct (Format _ _) as [m|e|u|w|]; try discriminate. apply str_eqb_eq in F. subst m. reflexivity.
Qed.

Lemma tok_bad_escape off src val c rest toks start line pos :
  str_body src val -> bad_escape c = true ->
  tok_loop off ([c_dquote] ++ src ++ [c_bslash; c] ++ rest) (mk toks [] start line false false false pos) =
  Throw (ELispBase ($"Invalid character after backslash " ++ [c])).
Proof.
  intros Hb Hc. cbn [app]. rewrite tok_loop_step.
  match goal with |- context [tok_step off (mk toks [] start line false false false pos) c_dquote ?R] =>
    change (tok_step off (mk toks [] start line false false false pos) c_dquote R)
    with (Val (mk toks [] start line true false false pos)) end. cbn [obind].
  change (next_pos (mk toks [] start line true false false pos)) with (mk toks [] start line true false false (pos + 1)).
  rewrite (tok_loop_string_body off src val Hb). cbn [app]. rewrite tok_loop_step.
  match goal with |- context [mk toks val start ?L true false false ?P] => set (L' := L); set (P' := P) end.
  change (tok_step off (mk toks val start L' true false false P') c_bslash (c :: rest))
    with (Val (mk toks val start L' true false true P')). cbn [obind].
  change (next_pos (mk toks val start L' true false true P')) with (mk toks val start L' true false true (P' + 1)).
  rewrite tok_loop_step. unfold bad_escape in Hc. pose proof Hc as Hc0. apply andb_true_iff in Hc. destruct Hc as [Hp _].
  destruct (plain_char_branches c Hp) as (h1 & h2 & h3 & h4 & h5 & h6 & h7).
  unfold tok_step. rewrite h1, h2, h3, h4, h5, h6, h7. cbn [negb ts_bs mk]. rewrite (bad_escape_msg c Hc0). reflexivity.
Qed.

Lemma prefix_error {off s ks text} e : src_ok s -> src_closed s -> src_means2 1 s ks ->
  (forall toks start line pos, tok_loop off text (mk toks [] start line false false false pos) = Throw e) ->
  tokenize (src_text s ++ text) off = Throw e.
Proof.
  intros H1 H2 H3 He. unfold tokenize. change tinit with (mk [] [] 0 1 false false false 0).
  destruct (run_prefix off s H1 H2 1%Z ks H3 text [] 0%Z 0%Z) as (toks & st & p & E & Ev).
  rewrite E, He. reflexivity.
Qed.

(** ** Literals out of range *)
Lemma tok_word_throw off w e ch rest toks start line pos : is_word w -> classify w = Throw e ->
  (is_space ch = true \/ is_paren ch = true) ->
  tok_loop off (w ++ ch :: rest) (mk toks [] start line false false false pos) = Throw e.
Proof.
  intros [Hne Hw] Hc Hch. rewrite tok_loop_word by exact Hw. cbn [app]. destruct w as [|c0 w0]; [congruence|].
  set (w := c0 :: w0) in *. rewrite tok_loop_step.
  assert (A : forall p s, add_token off w p s = Throw e) by (intros; unfold add_token, mk_token; rewrite Hc; reflexivity).
  assert (tok_step off (mk toks w start line false true false (pos + Z.of_nat (length w))) ch rest = Throw e) as ->; [|reflexivity].
  unfold tok_step. destruct Hch as [Hs|Hp].
  - rewrite (space_7bit ch Hs), Hs. cbn [negb ts_instr ts_insym ts_cur ts_pos mk]. rewrite A. reflexivity.
  - unfold is_paren in Hp. apply orb_true_iff in Hp. destruct Hp as [H|H]; apply Ascii.eqb_eq in H; subst ch;
      cbn -[add_token w]; rewrite A; reflexivity.
Qed.

(** ** Words: texts over plain characters, blanks and brackets *)
Fixpoint classify_all (ws : list str) : out (list (toktype * tokval)) :=
  match ws with
  | [] => Val []
  | w :: ws' => let? k := classify w in let? ks := classify_all ws' in Val (k :: ks)
  end.

Definition run_kinds off code s : out (list (toktype * tokval)) :=
  let? s1 := tok_loop off code s in let? ts := tok_finish off s1 in Val (map tk_kind ts).

Lemma run_kinds_words off : forall text, simple_text text -> forall toks cur start line pos,
  forallb plain_char cur = true ->
  run_kinds off text (mk toks cur start line false (match cur with [] => false | _ => true end) false pos) =
  (let? ks := classify_all (words_from cur text) in Val (map tk_kind (rev toks) ++ ks)).
Proof.
  assert (AT : forall cur p s, add_token off cur p s =
     (let? k := classify cur in Val (TState (Token (fst k) (snd k) (ts_start s - off) (p - off) (ts_line s) :: ts_toks s) [] (p + 1) (ts_line s) false false (ts_bs s) (ts_pos s) (ts_skip s)))).
  { intros. unfold add_token, mk_token. destruct (classify cur) as [[kt kv]|e|u|w|]; reflexivity. }
  assert (G : forall toks k p1 p2 p3 ks, map tk_kind (rev (Token (fst k) (snd k) p1 p2 p3 :: toks)) ++ ks = map tk_kind (rev toks) ++ k :: ks).
  { intros. cbn [rev]. rewrite map_app, <- app_assoc. cbn. unfold tk_kind at 2. cbn. rewrite <- surjective_pairing. reflexivity. }
  induction text as [|c text IH]; intros Hs toks cur start line pos Hcur.
  - unfold run_kinds. cbn [tok_loop obind]. unfold tok_finish. cbn [ts_cur mk].
    destruct cur as [|c0 cur0].
    + cbn. rewrite app_nil_r. reflexivity.
    + rewrite AT. cbn [words_from classify_all]. destruct (classify (c0 :: cur0)) as [k|e|u|w|]; cbn [obind]; try reflexivity.
      f_equal. cbn [ts_toks]. rewrite <- (app_nil_r (map tk_kind _)), G. reflexivity.
  - unfold simple_text in Hs. cbn [forallb] in Hs. apply andb_true_iff in Hs. destruct Hs as [Hc Hs].
    unfold run_kinds. rewrite tok_loop_step. cbn [words_from].
    destruct (is_space c) eqn:Esp.
    { unfold tok_step. rewrite (space_7bit c Esp), Esp. cbn [negb ts_instr ts_insym mk].
      destruct cur as [|c0 cur0].
      - cbn [obind app classify_all].
        match goal with |- context [next_pos ?x] => set (x' := x) end.
        assert (exists l', next_pos x' = mk toks [] start l' false false false (pos + 1)) as [l' ->].
        { subst x'. destruct (Ascii.eqb c c_nl); eexists; reflexivity. }
        apply (IH Hs toks [] start l' (pos + 1)%Z eq_refl).
      - rewrite AT. cbn [ts_cur ts_pos mk]. cbn [app classify_all]. destruct (classify (c0 :: cur0)) as [k|e|u|w|]; cbn [obind]; try reflexivity.
        match goal with |- context [next_pos ?x] => set (x' := x) end.
        assert (exists p1 p2 p3 l' , next_pos x' = mk (Token (fst k) (snd k) p1 p2 p3 :: toks) [] (pos + 1) l' false false false (pos + 1)) as (p1 & p2 & p3 & l' & ->).
        { subst x'. destruct (Ascii.eqb c c_nl); do 4 eexists; reflexivity. }
        pose proof (IH Hs (Token (fst k) (snd k) p1 p2 p3 :: toks) [] (pos + 1)%Z l' (pos + 1)%Z eq_refl) as IH'.
        unfold run_kinds in IH'. cbn [ts_toks] in IH'. rewrite IH'.
        destruct (classify_all (words_from [] text)) as [ks|e|u|w|]; cbn [obind]; try reflexivity.
        rewrite G. reflexivity. }
    destruct (Ascii.eqb c c_lpar || Ascii.eqb c c_rpar) eqn:Ep.
    { assert (Hstep : forall tk p st ln, exists k p1 p2, classify [c] = Val k /\ next_pos (set_bs false (TState (Token (fst k) (snd k) p1 p2 ln :: tk) [] (p+1) ln false false false p 0)) =
          mk (Token (fst k) (snd k) p1 p2 ln :: tk) [] (p + 1) ln false false false (p + 1) /\ add_token off [c] p (mk tk [] st ln false false false p) = Val (TState (Token (fst k) (snd k) p1 p2 ln :: tk) [] (p+1) ln false false false p 0)).
      { intros. apply orb_true_iff in Ep. destruct Ep as [E|E]; apply Ascii.eqb_eq in E; subst c;
          do 3 eexists; (split; [reflexivity|]); split; reflexivity. }
      assert (Hb : tok_step off (mk toks cur start line false (match cur with [] => false | _ => true end) false pos) c text =
        (let? s1 := (match cur with [] => add_token off [c] pos (mk toks cur start line false false false pos)
             | _ => let? s1 := add_token off cur pos (mk toks cur start line false true false pos) in add_token off [c] pos s1 end) in Val (set_bs false s1))).
      { apply orb_true_iff in Ep. destruct Ep as [E|E]; apply Ascii.eqb_eq in E; subst c; destruct cur; reflexivity. }
      rewrite Hb. destruct cur as [|c0 cur0].
      - destruct (Hstep toks pos start line) as (k & p1 & p2 & Ek & En & Ea). rewrite Ea. cbn [obind]. rewrite En.
        cbn [app classify_all]. rewrite Ek. cbn [obind].
        pose proof (IH Hs (Token (fst k) (snd k) p1 p2 line :: toks) [] (pos + 1)%Z line (pos + 1)%Z eq_refl) as IH'.
        unfold run_kinds in IH'. rewrite IH'.
        destruct (classify_all (words_from [] text)) as [ks|e|u|w|]; cbn [obind]; try reflexivity. rewrite G. reflexivity.
      - rewrite AT. cbn [app classify_all]. destruct (classify (c0 :: cur0)) as [k0|e|u|w|]; cbn [obind]; try reflexivity.
        cbn [ts_toks ts_cur ts_start ts_line ts_instr ts_insym ts_bs ts_pos ts_skip mk].
        set (t0 := Token (fst k0) (snd k0) (start - off) (pos - off) line).
        destruct (Hstep (t0 :: toks) pos (pos + 1)%Z line) as (k & p1 & p2 & Ek & En & Ea).
        unfold mk in Ea. rewrite Ea. cbn [obind]. rewrite En. rewrite Ek. cbn [obind].
        pose proof (IH Hs (Token (fst k) (snd k) p1 p2 line :: t0 :: toks) [] (pos + 1)%Z line (pos + 1)%Z eq_refl) as IH'.
        unfold run_kinds in IH'. rewrite IH'.
        destruct (classify_all (words_from [] text)) as [ks|e|u|w|]; cbn [obind]; try reflexivity. rewrite G. unfold t0. rewrite G. reflexivity. }
    assert (Hp : plain_char c = true).
    { apply orb_false_iff in Ep. destruct Ep as [E1 E2]. rewrite E1, E2, !orb_false_r in Hc. exact Hc. }
    assert (E : tok_loop off (c :: text) (mk toks cur start line false (match cur with [] => false | _ => true end) false pos)
      = tok_loop off text (mk toks (cur ++ [c]) start line false true false (pos + 1))).
    { change (c :: text) with ([c] ++ text). rewrite tok_loop_word by (cbn [forallb]; rewrite Hp; reflexivity). reflexivity. }
    rewrite <- tok_loop_step. rewrite E.
    specialize (IH Hs toks (cur ++ [c]) start line (pos + 1)%Z). unfold run_kinds in IH.
    destruct (cur ++ [c]) as [|d cur'] eqn:Ec; [destruct cur; discriminate|]. apply IH.
    rewrite <- Ec, forallb_app, Hcur. cbn [forallb]. rewrite Hp. reflexivity.
Qed.

Lemma tokenize_words off text : simple_text text ->
  omap (map tk_kind) (tokenize text off) = classify_all (words text).
Proof.
  intro H. transitivity (run_kinds off text tinit).
  { unfold omap, tokenize, run_kinds. destruct (tok_loop off text tinit); cbn [obind]; reflexivity. }
  change tinit with (mk [] [] 0 1 false false false 0).
  rewrite (run_kinds_words off text H [] [] 0%Z 1%Z 0%Z eq_refl). unfold words.
  destruct (classify_all (words_from [] text)); reflexivity.
Qed.

Lemma words_concat_from : forall text cur, concat (words_from cur text) = cur ++ filter (fun c => negb (is_space c)) text.
Proof.
  induction text as [|c text IH]; intro cur.
  - cbn. destruct cur; cbn; rewrite ?app_nil_r; reflexivity.
  - cbn [words_from filter]. destruct (is_space c) eqn:E; cbn [negb].
    + destruct cur; cbn [app concat]; rewrite IH; reflexivity.
    + destruct (Ascii.eqb c c_lpar || Ascii.eqb c c_rpar).
      * destruct cur; cbn [app concat]; rewrite IH; reflexivity.
      * rewrite IH, <- app_assoc. reflexivity.
Qed.

(** ** The statements used by the property files *)
Lemma kinds_omap o : kinds_of o = omap (map tk_kind) o. Proof. destruct o; reflexivity. Qed.
Lemma views_omap o : views_of o = omap (map tk_view) o. Proof. destruct o; reflexivity. Qed.
Lemma kinds_views o ks : views_of o = Val ks -> kinds_of o = Val (map fst ks).
Proof.
  destruct o; cbn; try discriminate. intro H. injection H as <-. rewrite map_map. reflexivity.
Qed.

Lemma src_kinds_means2 : forall s ks line, src_kinds s ks -> exists vs, src_means2 line s vs /\ map fst vs = ks.
Proof.
  induction s as [|[x b] s IH]; intros ks line H; destruct ks as [|k ks]; try contradiction.
  - exists []. split; [exact I|reflexivity].
  - destruct H as [Hx Hs]. destruct (IH ks (line + newlines (lx_text x ++ b) + lx_semis x)%Z Hs) as (vs & V1 & V2).
    exists ((k, line + lx_inner_newlines x + lx_semis x)%Z :: vs). split.
    + split; [apply lx_means_classify; exact Hx|]. split; [reflexivity|exact V1].
    + cbn. rewrite V2. reflexivity.
Qed.

Lemma source_kinds off s ks : src_ok s -> src_kinds s ks -> kinds_of (tokenize (src_text s) off) = Val ks.
Proof.
  intros H1 H2. destruct (src_kinds_means2 s ks 1%Z H2) as (vs & V1 & V2). subst ks.
  apply kinds_views. rewrite views_omap. apply tokenize_source2; assumption.
Qed.

Lemma source_views off s ks : src_ok s -> src_no_semi s -> src_means 1 s ks -> views_of (tokenize (src_text s) off) = Val ks.
Proof. intros. rewrite views_omap. apply tokenize_source; assumption. Qed.

Lemma src_kinds_app : forall s1 s2 ks, src_kinds (s1 ++ s2) ks -> exists k1 k2, ks = k1 ++ k2 /\ src_kinds s1 k1 /\ src_kinds s2 k2.
Proof.
  induction s1 as [|[x b] s1 IH]; intros s2 ks H.
  - exists [], ks. repeat split. exact H.
  - destruct ks as [|k ks]; [contradiction|]. destruct H as [Hx Hs].
    destruct (IH s2 ks Hs) as (k1 & k2 & -> & A & B). exists (k :: k1), k2. repeat split; assumption.
Qed.

Lemma string_literal off s1 src val b s2 ks1 ks2 :
  str_body src val -> src_ok (s1 ++ (LxString src val, b) :: s2) -> src_kinds s1 ks1 -> src_kinds s2 ks2 ->
  kinds_of (tokenize (src_text (s1 ++ (LxString src val, b) :: s2)) off) = Val (ks1 ++ (TkString, TvStr val) :: ks2).
Proof.
  intros _ Hok H1 H2. apply source_kinds; [exact Hok|]. clear Hok.
  revert ks1 H1. induction s1 as [|[x c] s1 IH]; intros ks1 H1; destruct ks1 as [|k ks1]; try contradiction.
  - cbn. split; [reflexivity|exact H2].
  - cbn [app src_kinds] in *. destruct H1 as [A B]. split; [exact A|]. apply IH. exact B.
Qed.

Lemma escape_body val : forallb is_7bit val = true -> str_body (escape val) val.
Proof.
  induction val as [|c val IH]; intro H; [constructor|]. cbn [forallb] in H. apply andb_true_iff in H. destruct H as [Hc Hv].
  cbn [escape]. destruct (Ascii.eqb c c_dquote) eqn:E1.
  - apply Ascii.eqb_eq in E1. subst c. cbn [orb]. constructor. auto.
  - destruct (Ascii.eqb c c_bslash) eqn:E2; cbn [orb].
    + apply Ascii.eqb_eq in E2. subst c. apply sb_bslash. auto.
    + apply sb_raw; auto; apply Ascii.eqb_neq; assumption.
Qed.

Lemma string_escaped_alone val : forallb is_7bit val = true ->
  kinds_of (tokenize (lx_text (LxString (escape val) val)) 0) = Val [(TkString, TvStr val)].
Proof.
  intro H. pose proof (escape_body val H) as Hb.
  pose proof (string_literal 0 [] (escape val) val [] [] [] [] Hb) as L. cbn [app src_text] in L. rewrite !app_nil_r in L. apply L.
  - cbn [src_ok]. repeat split; try exact Hb.
  - exact I.
  - exact I.
Qed.

Lemma bad_escape_rejected off s ks src val c rest :
  src_ok s -> src_closed s -> src_kinds s ks -> str_body src val -> bad_escape c = true ->
  tokenize (src_text s ++ [c_dquote] ++ src ++ [c_bslash; c] ++ rest) off =
  Throw (ELispBase ($"Invalid character after backslash " ++ [c])).
Proof.
  intros H1 H2 H3 H4 H5. destruct (src_kinds_means2 s ks 1%Z H3) as (vs & V1 & _).
  eapply prefix_error; try eassumption. intros. eapply tok_bad_escape; eassumption.
Qed.

Lemma escapes_complete_b : forall c, (negb (is_7bit c) || (idle_escape c || bad_escape c || existsb (Ascii.eqb c) [c_dquote; c_bslash; "n"%char; "t"%char; "r"%char])) = true.
Proof. ascii_sweep. Qed.

(** Every literal body is a valid one or contains a bad escape. *)
Inductive lit_case (src : str) : Prop :=
| lit_ok : forall val, str_body src val -> lit_case src
| lit_bad : forall a val c b, src = a ++ [c_bslash; c] ++ b -> str_body a val -> bad_escape c = true -> lit_case src
| lit_open_end : forall a val, src = a ++ [c_bslash] -> str_body a val -> lit_case src
| lit_dquote : forall a val b, src = a ++ c_dquote :: b -> str_body a val -> lit_case src.

Lemma literal_cases : forall n src, (length src < n)%nat -> forallb is_7bit src = true -> lit_case src.
Proof.
  induction n as [|n IH]; intros src Hn H; [lia|].
  destruct src as [|c src]; [eapply lit_ok; constructor|].
  cbn [forallb length] in *. apply andb_true_iff in H. destruct H as [Hc Hs].
  destruct (Ascii.eqb c c_dquote) eqn:Eq.
  { apply Ascii.eqb_eq in Eq. subst c. eapply (lit_dquote _ [] []); [reflexivity|constructor]. }
  destruct (Ascii.eqb c c_bslash) eqn:Eb.
  2:{ assert (R : forall a v, str_body a v -> str_body (c :: a) (c :: v)) by (intros; apply sb_raw; auto; apply Ascii.eqb_neq; assumption).
      destruct (IH src ltac:(lia) Hs) as [val B|a val d b -> B Hd|a val -> B|a val b -> B].
      - eapply lit_ok. apply R. exact B.
      - eapply (lit_bad _ (c :: a)); [reflexivity|apply R; exact B|exact Hd].
      - eapply (lit_open_end _ (c :: a)); [reflexivity|apply R; exact B].
      - eapply (lit_dquote _ (c :: a)); [reflexivity|apply R; exact B]. }
  apply Ascii.eqb_eq in Eb. subst c. destruct src as [|d src].
  { eapply (lit_open_end _ []); [reflexivity|constructor]. }
  cbn [forallb length] in *. apply andb_true_iff in Hs. destruct Hs as [Hd Hs].
  destruct (bad_escape d) eqn:Ebad.
  { eapply (lit_bad _ [] [] d src); [reflexivity|constructor|exact Ebad]. }
  assert (R : exists w, forall a v, str_body a v -> str_body (c_bslash :: d :: a) (w :: v)).
  { pose proof (escapes_complete_b d) as C. rewrite Hd, Ebad in C. cbn [negb orb] in C. rewrite orb_false_r in C.
    apply orb_true_iff in C. destruct C as [C|C].
    - exists d. intros. apply sb_idle; assumption.
    - cbn [existsb] in C. rewrite !orb_true_iff, !Ascii.eqb_eq in C. decompose [or] C; subst; try discriminate; eexists; intros; constructor; assumption. }
  destruct R as [w R].
  destruct (IH src ltac:(lia) Hs) as [val B|a val e b -> B He|a val -> B|a val b -> B].
  - eapply lit_ok. apply R. exact B.
  - eapply (lit_bad _ (c_bslash :: d :: a)); [reflexivity|apply R; exact B|exact He].
  - eapply (lit_open_end _ (c_bslash :: d :: a)); [reflexivity|apply R; exact B].
  - eapply (lit_dquote _ (c_bslash :: d :: a)); [reflexivity|apply R; exact B].
Qed.

Lemma literal_valid_or_rejected src rest :
  forallb is_7bit src = true ->
  (forall a b val, src = a ++ c_dquote :: b -> ~ str_body a val) ->
  (forall a val, src = a ++ [c_bslash] -> ~ str_body a val) ->
  (exists val, str_body src val) \/
  (exists c, tokenize ([c_dquote] ++ src ++ rest) 0 = Throw (ELispBase ($"Invalid character after backslash " ++ [c]))).
Proof.
  intros H Hq He. destruct (literal_cases (S (length src)) src (Nat.lt_succ_diag_r _) H) as [val B|a val c b E B Hc|a val E B|a val b E B].
  - left. eauto.
  - right. exists c. subst src. rewrite <- !app_assoc.
    apply (bad_escape_rejected 0 [] [] a val c (b ++ rest)); try exact I; assumption.
  - exfalso. exact (He a val E B).
  - exfalso. exact (Hq a b val E B).
Qed.

Lemma comment_inserted_views off s ks c text :
  src_ok s -> src_closed s -> src_no_semi s -> src_means 1 s ks -> lx_ok (LxComment c) ->
  forall vs, views_of (tokenize text off) = Val vs ->
  views_of (tokenize (src_text s ++ text) off) = Val (ks ++ map (shift_line (newlines (src_text s))) vs) /\
  views_of (tokenize (src_text s ++ [c_semi] ++ c ++ [c_nl] ++ text) off) =
    Val (ks ++ (TkComment, TvStr ([c_semi] ++ c ++ [c_nl]), 1 + newlines (src_text s))%Z
            :: map (shift_line (newlines (src_text s) + 1)) vs).
Proof.
  intros H1 H2 H3 H4 H5 vs Hv. destruct (comment_inserted off s ks c text H1 H2 H3 H4 H5) as [A B].
  rewrite views_omap in Hv. rewrite Hv in A, B. cbn [omap obind] in A, B. rewrite !views_omap. split; [exact A|].
  cbn [lx_text] in B. rewrite <- !app_assoc in B. exact B.
Qed.

Lemma comment_inserted_error off s ks c text e :
  src_ok s -> src_closed s -> src_no_semi s -> src_means 1 s ks -> lx_ok (LxComment c) ->
  tokenize text off = Throw e ->
  tokenize (src_text s ++ text) off = Throw e /\ tokenize (src_text s ++ [c_semi] ++ c ++ [c_nl] ++ text) off = Throw e.
Proof.
  intros H1 H2 H3 H4 H5 He. destruct (comment_inserted off s ks c text H1 H2 H3 H4 H5) as [A B].
  rewrite He in A, B. cbn [omap obind] in A, B. cbn [lx_text] in B. rewrite <- !app_assoc in B.
  split.
  - destruct (tokenize (src_text s ++ text) off); cbn in A; try discriminate. congruence.
  - destruct (tokenize (src_text s ++ [c_semi] ++ c ++ [c_nl] ++ text) off); cbn in B; try discriminate. congruence.
Qed.

Lemma bare_comment_views off s ks text :
  src_ok s -> src_closed s -> src_no_semi s -> src_means 1 s ks -> forallb is_7bit text = true ->
  views_of (tokenize (src_text s ++ [c_semi; c_nl] ++ text) off) =
  Val (ks ++ [(TkComment, TvStr ([c_semi; c_nl] ++ text), 1 + newlines (src_text s))%Z]).
Proof. intros. rewrite views_omap. apply bare_comment; assumption. Qed.

(** Lines. *)
Lemma lines_exact off s1 x b s2 ks : src_ok (s1 ++ (x, b) :: s2) -> src_no_semi (s1 ++ (x, b) :: s2) ->
  src_kinds (s1 ++ (x, b) :: s2) ks ->
  exists vs, views_of (tokenize (src_text (s1 ++ (x, b) :: s2)) off) = Val vs /\ map fst vs = ks /\
    option_map snd (nth_error vs (length s1)) = Some (1 + newlines (src_text s1) + lx_inner_newlines x)%Z.
Proof.
  intros Hok Hns Hk.
  assert (G : forall s line ks, src_no_semi s -> src_kinds s ks -> exists vs, src_means line s vs /\ map fst vs = ks).
  { induction s as [|[y c] s IH]; intros line ks0 Hn H; destruct ks0 as [|k ks0]; try contradiction.
    - exists []. split; [exact I|reflexivity].
    - destruct H as [Hy Hs]. inversion Hn as [|? ? _ Hn']; subst.
      destruct (IH (line + newlines (lx_text y ++ c))%Z ks0 Hn' Hs) as (vs & V1 & V2).
      exists ((k, line + lx_inner_newlines y)%Z :: vs). split.
      + cbn [src_means]. auto.
      + cbn. rewrite V2. reflexivity. }
  destruct (G _ 1%Z ks Hns Hk) as (vs & V1 & V2). exists vs. split; [apply source_views; assumption|]. split; [exact V2|].
  clear G Hok Hns Hk V2. assert (P : forall s1 line vs, src_means line (s1 ++ (x, b) :: s2) vs ->
     option_map snd (nth_error vs (length s1)) = Some (line + newlines (src_text s1) + lx_inner_newlines x)%Z).
  { clear. induction s1 as [|[y c] s1 IH]; intros line vs H; destruct vs as [|[k l] vs]; try contradiction.
    - cbn [app src_means] in H. destruct H as (_ & -> & _). cbn [length nth_error option_map snd src_text].
      change (newlines []) with 0%Z. f_equal. lia.
    - cbn [app src_means] in H. destruct H as (_ & _ & H). cbn [length nth_error]. rewrite (IH _ _ H).
      cbn [src_text]. f_equal. rewrite !newlines_app. lia. }
  apply P. exact V1.
Qed.

(** Words. *)
Lemma piece_classify w k : piece_means w k -> classify w = Val k.
Proof.
  intros [[-> ->]|[[-> ->]|H]]; [reflexivity|reflexivity|]. apply word_means_classify. exact H.
Qed.

Lemma classify_all_means ws ks : Forall2 piece_means ws ks -> classify_all ws = Val ks.
Proof.
  induction 1 as [|w k ws ks H _ IH]; [reflexivity|]. cbn [classify_all]. rewrite (piece_classify w k H), IH. reflexivity.
Qed.

Lemma classify_all_length : forall ws ks, classify_all ws = Val ks -> length ks = length ws.
Proof.
  induction ws as [|w ws IH]; intros ks H; cbn [classify_all] in H.
  - injection H as <-. reflexivity.
  - destruct (classify w); try discriminate. cbn [obind] in H. destruct (classify_all ws); try discriminate.
    cbn in H. injection H as <-. cbn. f_equal. apply IH. reflexivity.
Qed.

Lemma no_text_dropped off text ks : simple_text text -> Forall2 piece_means (words text) ks ->
  kinds_of (tokenize text off) = Val ks /\ concat (words text) = filter (fun c => negb (is_space c)) text.
Proof.
  intros H1 H2. split.
  - rewrite kinds_omap, tokenize_words by exact H1. apply classify_all_means. exact H2.
  - apply (words_concat_from text []).
Qed.

Lemma one_token_per_word off text ts : simple_text text -> tokenize text off = Val ts -> length ts = length (words text).
Proof.
  intros H1 H2. pose proof (tokenize_words off text H1) as E. rewrite H2 in E. cbn in E. symmetry in E.
  apply classify_all_length in E. rewrite map_length in E. exact E.
Qed.

(** Integer literals. *)
Lemma int_literal_in_range off w z : int_text w z -> (- 2 ^ 31 <= z < 2 ^ 31)%Z ->
  kinds_of (tokenize w off) = Val [(TkInt, TvInt z)].
Proof.
  intros H Hz. pose proof (source_kinds off [(LxWord w, [])] [(TkInt, TvInt z)]) as S.
  cbn [src_text lx_text] in S. rewrite !app_nil_r in S. apply S.
  - cbn [src_ok lx_ok]. split; [apply (int_text_word w z H)|]. repeat split.
  - cbn. split; [apply wm_int; assumption|exact I].
Qed.

Lemma int_literal_out_of_range off s ks w z ch rest : src_ok s -> src_closed s -> src_kinds s ks ->
  int_text w z -> ~ (- 2 ^ 31 <= z < 2 ^ 31)%Z -> (is_space ch = true \/ ch = c_lpar \/ ch = c_rpar) ->
  tokenize (src_text s ++ w ++ ch :: rest) off = Throw EOutOfRange.
Proof.
  intros H1 H2 H3 H4 H5 H6. destruct (src_kinds_means2 s ks 1%Z H3) as (vs & V1 & _).
  eapply prefix_error; try eassumption. intros. apply tok_word_throw.
  - apply (int_text_word w z H4).
  - rewrite (classify_int w z H4). replace (in_int z) with false; [reflexivity|]. unfold in_int, int_min, int_max. lia.
  - destruct H6 as [H6|[-> | ->]]; [left; exact H6|right; reflexivity|right; reflexivity].
Qed.

Lemma printed_int_literal off z : (- 2 ^ 31 <= z < 2 ^ 31)%Z ->
  kinds_of (tokenize (z_to_string z) off) = Val [(TkInt, TvInt z)].
Proof. intro H. apply int_literal_in_range; [apply z_to_string_int_text|exact H]. Qed.
