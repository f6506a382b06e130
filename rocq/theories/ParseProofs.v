(** Lemmas about the parser model. *)
Require Import String Ascii List ZArith Bool Lia.
Require Import ZifyBool ZifyNat ZifyN.
From Verif Require Import Base CppString Num Token Tokenizer Parser SpecLex SpecParse TokProofs ClassifyProofs LexProofs.
Import ListNotations.

(** ** Fuel *)
Lemma parse_shorter m last : forall fuel top ts stack p r,
  parse_tokens fuel m last top ts stack = Val (p, r) -> (length r <= length ts)%nat.
Proof.
  induction fuel as [|fuel IH]; intros top ts stack p r H; [discriminate|].
  cbn [parse_tokens] in H. destruct ts as [|t ts].
  - destruct top, last as [l|], stack as [|cur st]; try discriminate; injection H as _ <-; cbn; lia.
  - assert (M : forall nm, (let? r0 := parse_tokens fuel m last false ts [] in
        (let '(q, ts2) := r0 in
         match stack with
         | [] => parse_tokens fuel m last top ts2 []
         | cur :: stack' => parse_tokens fuel m last top ts2 ((PList [PSym nm; q] :: cur) :: stack')
         end)) = Val (p, r) -> (length r <= length (t :: ts))%nat).
    { intros nm Hm. destruct (parse_tokens fuel m last false ts []) as [[q ts2]|e|u|w|] eqn:E; try discriminate. cbn [obind] in Hm.
      apply IH in E. destruct stack; apply IH in Hm; cbn [length]; lia. }
    assert (M2 : forall nm, (let? r0 := parse_tokens fuel m last false ts [] in
        (let '(q, ts2) := r0 in
         match stack with
         | [] => Val (PList [PSym nm; q], ts2)
         | cur :: stack' => parse_tokens fuel m last top ts2 ((PList [PSym nm; q] :: cur) :: stack')
         end)) = Val (p, r) -> (length r <= length (t :: ts))%nat).
    { intros nm Hm. destruct (parse_tokens fuel m last false ts []) as [[q ts2]|e|u|w|] eqn:E; try discriminate. cbn [obind] in Hm.
      apply IH in E. destruct stack; [injection Hm as _ <-|apply IH in Hm]; cbn [length]; lia. }
    destruct (tk_type t); try (destruct stack as [|cur st]; [|apply IH in H; cbn [length]; lia]; destruct top; try discriminate; injection H as _ <-; cbn; lia);
      try (apply IH in H; cbn [length]; lia); try (eapply M; exact H); try (eapply M2; exact H).
    destruct stack as [|cur [|up st]]; [discriminate| |apply IH in H; cbn [length]; lia].
    destruct (top && negb (only_comments ts)); [discriminate|]. injection H as _ <-. cbn. lia.
Qed.

(** The parser with enough fuel. *)
Definition pt (m : str) (last : option token) (top : bool) (ts : list token) (stack : list (list ptree)) :=
  parse_tokens (S (length ts)) m last top ts stack.

Lemma parse_fuel m last : forall n fuel1 fuel2 top ts stack,
  (length ts < n)%nat -> (length ts < fuel1)%nat -> (length ts < fuel2)%nat ->
  parse_tokens fuel1 m last top ts stack = parse_tokens fuel2 m last top ts stack.
Proof.
  induction n as [|n IH]; intros fuel1 fuel2 top ts stack Hn H1 H2; [lia|].
  destruct fuel1 as [|f1]; [lia|]. destruct fuel2 as [|f2]; [lia|]. cbn [parse_tokens].
  destruct ts as [|t ts]; [reflexivity|]. cbn [length] in *.
  assert (E : forall tp sk, parse_tokens f1 m last tp ts sk = parse_tokens f2 m last tp ts sk) by (intros; apply IH; lia).
  assert (E2 : forall tp q ts2 sk, parse_tokens f1 m last false ts [] = Val (q, ts2) ->
      parse_tokens f1 m last tp ts2 sk = parse_tokens f2 m last tp ts2 sk).
  { intros tp q ts2 sk H. apply parse_shorter in H. apply IH; lia. }
  destruct (tk_type t); try (destruct stack as [|cur st]; [reflexivity|apply E]); try apply E;
   try (rewrite <- E; destruct (parse_tokens f1 m last false ts []) as [[q ts2]|e|u|w|] eqn:Q; try reflexivity; cbn [obind];
        destruct stack; try reflexivity; eapply E2; reflexivity).
  destruct stack as [|cur [|up st]]; try reflexivity. apply E.
Qed.

Lemma pt_fuel m last fuel top ts stack : (length ts < fuel)%nat ->
  parse_tokens fuel m last top ts stack = pt m last top ts stack.
Proof. intro H. unfold pt. apply (parse_fuel m last (S (length ts))); lia. Qed.

(** One step of the parser, without fuel. *)
Lemma pt_cons m last top t ts stack : pt m last top (t :: ts) stack =
      match tk_type t with
      | TkListStart => pt m last top ts ([] :: stack)
      | TkListEnd =>
        match stack with
        | [] => Undef UBEmptyStack
        | [cur] =>
          if top && negb (only_comments ts) then
            Throw (exn_at msg_balance_or_code t m)
          else Val (PList (rev cur), ts)
        | cur :: up :: stack' =>
          pt m last top ts ((PList (rev cur) :: up) :: stack')
        end
      | TkQuote | TkQuasiQuote =>
        let name := match tk_type t with TkQuote => n_quote | _ => n_quasiquote end in
        let? r := pt m last false ts [] in
        let '(q, ts2) := r in
        match stack with
        | [] => pt m last top ts2 []
        | cur :: stack' =>
          pt m last top ts2 ((PList [PSym name; q] :: cur) :: stack')
        end
      | TkUnQuote | TkUnQuoteSplicing =>
        let name := match tk_type t with TkUnQuote => n_unquote | _ => n_unquotesplicing end in
        let? r := pt m last false ts [] in
        let '(q, ts2) := r in
        match stack with
        | [] => Val (PList [PSym name; q], ts2)
        | cur :: stack' =>
          pt m last top ts2 ((PList [PSym name; q] :: cur) :: stack')
        end
      | TkComment => pt m last top ts stack
      | _ =>
        match stack with
        | [] => if top then Throw (exn_at msg_unexpected t m)
                else Val (PTok t, ts)
        | cur :: stack' =>
          pt m last top ts ((PTok t :: cur) :: stack')
        end
      end.
Proof.
  unfold pt at 1. cbn [length].
  assert (E0 : forall tp sk, parse_tokens (S (length ts)) m last tp ts sk = pt m last tp ts sk) by reflexivity.
  assert (E : forall q ts2 tp sk, pt m last false ts [] = Val (q, ts2) ->
     parse_tokens (S (length ts)) m last tp ts2 sk = pt m last tp ts2 sk).
  { intros q ts2 tp sk H. apply parse_shorter in H. apply pt_fuel. lia. }
  remember (S (length ts)) as n eqn:En. clear En. cbn [parse_tokens]. rewrite !E0.
  destruct (tk_type t); rewrite ?E0; try reflexivity;
    try (destruct stack; rewrite ?E0; reflexivity);
    try (destruct (pt m last false ts []) as [[q ts2]|e|u|w|] eqn:Q; try reflexivity; cbn [obind];
        destruct stack; try reflexivity; eapply E; reflexivity).
  destruct stack as [|cur [|up st]]; rewrite ?E0; reflexivity.
Qed.

Lemma pt_never_nofuel m last : forall n top ts stack, (length ts < n)%nat -> pt m last top ts stack <> NoFuel.
Proof.
  induction n as [|n IH]; intros top ts stack Hn; [lia|].
  destruct ts as [|t ts].
  - unfold pt. cbn. destruct top, last, stack; discriminate.
  - rewrite pt_cons. cbn [length] in Hn.
    assert (A : forall tp sk, pt m last tp ts sk <> NoFuel) by (intros; apply IH; lia).
    assert (B : forall q ts2 tp sk, pt m last false ts [] = Val (q, ts2) -> pt m last tp ts2 sk <> NoFuel).
    { intros q ts2 tp sk H. apply parse_shorter in H. apply IH. lia. }
    destruct (tk_type t); try (destruct stack as [|cur st]; [destruct top; discriminate|apply A]); try apply A;
    try (cbv zeta; pose proof (A false []) as A0; destruct (pt m last false ts []) as [[q ts2]|e|u|w|] eqn:Q; try discriminate; try congruence; cbn [obind];
        destruct stack; try discriminate; eapply B; reflexivity).
    destruct stack as [|cur [|up st]]; try discriminate; try apply A.
    destruct (top && negb (only_comments ts)); discriminate.
Qed.

Lemma parse_toplevel_pt m ts : parse_toplevel m ts = (let? r := pt m (last_token ts) true ts [] in Val (fst r)).
Proof. reflexivity. Qed.

(** ** Reading back written expressions *)
Fixpoint erase (p : ptree) : datum :=
  match p with
  | PTok t => DAtom (tk_kind t)
  | PSym s => DAtom (TkSymbol, TvStr s)
  | PList l => DList (map erase l)
  end.

Scheme writes_ind2 := Induction for writes Sort Prop
  with writes_all_ind2 := Induction for writes_all Sort Prop.
Combined Scheme writes_mutind from writes_ind2, writes_all_ind2.

Lemma map_cons_inv {A B} (f : A -> B) l y ys : map f l = y :: ys -> exists x xs, l = x :: xs /\ f x = y /\ map f xs = ys.
Proof. destruct l as [|x xs]; [discriminate|]. cbn. intro H. injection H as <- <-. eauto. Qed.
Lemma map_app_inv {A B} (f : A -> B) : forall l a b, map f l = a ++ b -> exists la lb, l = la ++ lb /\ map f la = a /\ map f lb = b.
Proof.
  intros l a. revert l. induction a as [|x a IH]; intros l b H.
  - exists [], l. auto.
  - cbn [app] in H. apply map_cons_inv in H. destruct H as (y & ys & -> & Hy & Hys).
    destruct (IH ys b Hys) as (la & lb & -> & H1 & H2). exists (y :: la), lb. cbn. rewrite Hy, H1. auto.
Qed.

Lemma kind_type t k : tk_kind t = k -> tk_type t = fst k.
Proof. intros <-. reflexivity. Qed.

(** What parsing [ts] (the tokens of one expression) does with elements being collected, and at the start of a quoted datum. *)
Definition parses_to (e : expr) (ts : list token) : Prop :=
  (forall m last top rest cur st, exists p, erase p = datum_of e /\
    pt m last top (ts ++ rest) (cur :: st) = pt m last top rest ((p :: cur) :: st)) /\
  (quote_headed e = false ->
   forall m last rest, exists p, erase p = datum_of e /\ pt m last false (ts ++ rest) [] = Val (p, rest)).

Definition parses_all (l : list expr) (ts : list token) : Prop :=
  forall m last top rest cur st, exists ps, map erase ps = map datum_of l /\
    pt m last top (ts ++ rest) (cur :: st) = pt m last top rest ((rev ps ++ cur) :: st).

Lemma parses_mark m e t ts : tk_type t = fst (mark_kind m) -> quote_headed e = false -> parses_to e ts -> parses_to (EMark m e) (t :: ts).
Proof.
  intros Ht Hq [_ IH2]. specialize (IH2 Hq). split.
  - intros md last top rest cur st. destruct (IH2 md last rest) as (p & Ep & E).
    exists (PList [PSym (mark_name m); p]). split.
    + cbn. rewrite Ep. reflexivity.
    + cbn [app]. rewrite pt_cons. rewrite E. rewrite Ht. destruct m; reflexivity.
  - intros Hq2 md last rest. destruct (IH2 md last rest) as (p & Ep & E).
    exists (PList [PSym (mark_name m); p]). split.
    + cbn. rewrite Ep. reflexivity.
    + cbn [app]. rewrite pt_cons. rewrite E. rewrite Ht. destruct m; try discriminate; reflexivity.
Qed.

Lemma parses_written :
  (forall e ks, writes e ks -> forall ts, map tk_kind ts = ks -> parses_to e ts) /\
  (forall l ks, writes_all l ks -> forall ts, map tk_kind ts = ks -> parses_all l ts).
Proof.
  apply writes_mutind.
  - (* atom *)
    intros k Hk ts H. apply map_cons_inv in H. destruct H as (t & ts' & -> & Ht & Hn). destruct ts'; [|discriminate].
    assert (Ek : erase (PTok t) = datum_of (EAtom k)) by (cbn; rewrite Ht; reflexivity).
    apply kind_type in Ht. split.
    + intros m last top rest cur st. exists (PTok t). split; [exact Ek|]. cbn [app]. rewrite pt_cons, Ht.
      destruct (fst k); try discriminate; reflexivity.
    + intros _ m last rest. exists (PTok t). split; [exact Ek|]. cbn [app]. rewrite pt_cons, Ht.
      destruct (fst k); try discriminate; reflexivity.
  - (* list *)
    intros l ks _ IH ts H. apply map_cons_inv in H. destruct H as (t & ts' & -> & Ht & H).
    apply map_app_inv in H. destruct H as (la & lb & -> & Ha & Hb).
    apply map_cons_inv in Hb. destruct Hb as (tc & tn & -> & Hc & Hn). destruct tn; [|discriminate].
    apply kind_type in Ht. apply kind_type in Hc. cbn in Ht, Hc. split.
    + intros m last top rest cur st. destruct (IH la Ha m last top (tc :: rest) [] (cur :: st)) as (ps & Eps & E).
      exists (PList ps). split; [cbn; rewrite Eps; reflexivity|].
      cbn [app]. rewrite pt_cons, Ht. rewrite <- app_assoc. cbn [app]. rewrite E, pt_cons, Hc.
      rewrite app_nil_r, rev_involutive. reflexivity.
    + intros _ m last rest. destruct (IH la Ha m last false (tc :: rest) [] []) as (ps & Eps & E).
      exists (PList ps). split; [cbn; rewrite Eps; reflexivity|].
      cbn [app]. rewrite pt_cons, Ht. rewrite <- app_assoc. cbn [app]. rewrite E, pt_cons, Hc.
      rewrite app_nil_r, rev_involutive. reflexivity.
  - (* mark *)
    intros mk e ks Hq _ IH ts H. apply map_cons_inv in H. destruct H as (t & ts' & -> & Ht & H).
    apply parses_mark; [apply kind_type; exact Ht|exact Hq|apply IH; exact H].
  - (* comment after a mark *)
    intros mk e c ks _ IH ts H. apply map_cons_inv in H. destruct H as (t & ts' & -> & Ht & H).
    apply map_cons_inv in H. destruct H as (tc & ts2 & -> & Hc & H).
    assert (Hc' : tk_type tc = TkComment) by (apply kind_type in Hc; exact Hc).
    assert (Hts : parses_to (EMark mk e) (t :: ts2)).
    { apply IH. cbn. rewrite Ht, H. reflexivity. }
    destruct Hts as [A B].
    assert (S : forall md last top rest sk, pt md last top (t :: tc :: ts2 ++ rest) sk = pt md last top (t :: ts2 ++ rest) sk).
    { intros. rewrite !pt_cons. rewrite Hc'. apply kind_type in Ht. rewrite Ht.
      destruct mk; reflexivity. }
    split.
    + intros md last top rest cur st. destruct (A md last top rest cur st) as (p & E1 & E2). exists p. split; [exact E1|].
      cbn [app] in *. rewrite S. exact E2.
    + intros Hq md last rest. destruct (B Hq md last rest) as (p & E1 & E2). exists p. split; [exact E1|].
      cbn [app] in *. rewrite S. exact E2.
  - (* nil *)
    intros ts H. destruct ts; [|discriminate]. intros m last top rest cur st. exists []. split; reflexivity.
  - (* cons *)
    intros e l k1 k2 _ IH1 _ IH2 ts H. apply map_app_inv in H. destruct H as (ta & tb & -> & Ha & Hb).
    intros m last top rest cur st. destruct (IH1 ta Ha) as [A _].
    destruct (A m last top (tb ++ rest) cur st) as (p & Ep & E).
    destruct (IH2 tb Hb m last top rest (p :: cur) st) as (ps & Eps & E').
    exists (p :: ps). split; [cbn; rewrite Ep, Eps; reflexivity|].
    rewrite <- app_assoc, E, E'. cbn [rev]. rewrite <- app_assoc. reflexivity.
  - (* comment *)
    intros l c ks _ IH ts H. apply map_cons_inv in H. destruct H as (t & ts' & -> & Ht & H).
    intros m last top rest cur st. destruct (IH ts' H m last top rest cur st) as (ps & Eps & E).
    exists ps. split; [exact Eps|]. cbn [app]. rewrite pt_cons. apply kind_type in Ht. rewrite Ht. exact E.
Qed.

Lemma only_comments_spec ts : only_comments ts = true <-> all_comments ts.
Proof.
  unfold only_comments, all_comments. rewrite forallb_forall, Forall_forall. split; intros H t Ht; specialize (H t Ht).
  - destruct (tk_type t); try discriminate. reflexivity.
  - rewrite H. reflexivity.
Qed.

Lemma only_comments_kinds ts ks : map tk_kind ts = ks -> forallb comment_kind ks = true -> only_comments ts = true.
Proof.
  intros <- H. unfold only_comments. rewrite forallb_forall in *. intros t Ht.
  apply (H (tk_kind t)). apply in_map. exact Ht.
Qed.

Lemma comments_then m last top : forall cs rest stack, all_comments cs -> pt m last top (cs ++ rest) stack = pt m last top rest stack.
Proof.
  induction cs as [|c cs IH]; intros rest stack H; [reflexivity|]. inversion H; subst.
  cbn [app]. rewrite pt_cons. rewrite H2. apply IH. assumption.
Qed.

(** A written list at top level, with comments before and behind. *)
Lemma parse_written_list m ts l cs1 ks cs2 :
  map tk_kind ts = cs1 ++ ks ++ cs2 -> writes (EList l) ks ->
  forallb comment_kind cs1 = true -> forallb comment_kind cs2 = true ->
  exists p, parse_toplevel m ts = Val p /\ erase p = datum_of (EList l).
Proof.
  intros H W Hc1 Hc2. apply map_app_inv in H. destruct H as (t1 & tr & -> & H1 & H).
  apply map_app_inv in H. destruct H as (ta & tb & -> & Ha & Hb).
  rewrite parse_toplevel_pt. set (last := last_token _). clearbody last.
  rewrite comments_then by (apply only_comments_spec; eapply only_comments_kinds; eassumption).
  inversion W as [|l' ks' Wl El Ek| | ]. subst l'. rewrite <- Ek in Ha.
  apply map_cons_inv in Ha. destruct Ha as (t & ts' & -> & Ht & H).
  apply map_app_inv in H. destruct H as (la & lb & -> & Hla & Hlb).
  apply map_cons_inv in Hlb. destruct Hlb as (tc & tn & -> & Hc & Hn). destruct tn; [|discriminate].
  apply kind_type in Ht. apply kind_type in Hc. cbn in Ht, Hc.
  destruct (proj2 parses_written l ks' Wl la Hla m last true (tc :: tb) [] []) as (ps & Eps & E).
  exists (PList ps). cbn [app]. rewrite pt_cons, Ht. rewrite <- app_assoc. cbn [app]. rewrite E, pt_cons, Hc.
  rewrite (only_comments_kinds tb cs2 Hb Hc2). cbn [andb negb obind fst].
  rewrite app_nil_r, rev_involutive. split; [reflexivity|]. cbn. rewrite Eps. reflexivity.
Qed.

Lemma parse_source_list m off s l cs1 ks cs2 :
  src_ok s -> src_kinds s (cs1 ++ ks ++ cs2) -> writes (EList l) ks ->
  forallb comment_kind cs1 = true -> forallb comment_kind cs2 = true ->
  exists p, parse m (src_text s) off = Val p /\ erase p = datum_of (EList l).
Proof.
  intros Hok Hk W H1 H2. pose proof (source_kinds off s _ Hok Hk) as K. unfold parse.
  destruct (tokenize (src_text s) off) as [ts|e|u|w|]; try discriminate. cbn [kinds_of] in K. injection K as K.
  cbn [obind]. eapply parse_written_list; eassumption.
Qed.

(** ** Trees *)
Fixpoint tree_size (t : tree) : nat :=
  match t with TNode l => S (fold_right (fun x n => tree_size x + n) 0 l) | _ => 1 end%nat.

Lemma tree_blank : is_blank blank1. Proof. reflexivity. Qed.

Lemma src_ok_spaced : forall s, Forall (fun xb => lx_ok (fst xb) /\ snd xb = blank1) s -> src_ok s.
Proof.
  induction s as [|[x b] s IH]; intro H; [exact I|]. inversion H as [|? ? [Hx Hb] Hs]; subst. cbn in Hx, Hb. subst b.
  cbn [src_ok]. split; [exact Hx|]. split; [reflexivity|]. split; [discriminate|]. apply IH. exact Hs.
Qed.

Lemma src_kinds_app_intro : forall s1 s2 k1 k2, src_kinds s1 k1 -> src_kinds s2 k2 -> src_kinds (s1 ++ s2) (k1 ++ k2).
Proof.
  induction s1 as [|[x b] s1 IH]; intros s2 k1 k2 H1 H2; destruct k1 as [|k k1]; try contradiction; [exact H2|].
  cbn [app src_kinds] in *. destruct H1 as [A B]. split; [exact A|]. apply IH; assumption.
Qed.

Fixpoint expr_of_datum (d : datum) : expr :=
  match d with DAtom k => EAtom k | DList l => EList (map expr_of_datum l) end.

Lemma datum_expr : forall d, datum_of (expr_of_datum d) = d.
Proof.
  fix IH 1. intros [k|l]; cbn; [reflexivity|]. f_equal. rewrite map_map. 
  induction l as [|x l IHl]; [reflexivity|]. cbn. rewrite IH, IHl. reflexivity.
Qed.

Lemma word_means_atom w k : word_means w k -> atom_type (fst k) = true.
Proof. intro H. destruct H; reflexivity. Qed.

Lemma tree_written : forall n t d, (tree_size t < n)%nat -> tree_means t d ->
  Forall (fun xb => lx_ok (fst xb) /\ snd xb = blank1) (tree_source t) /\
  exists ks, src_kinds (tree_source t) ks /\ writes (expr_of_datum d) ks.
Proof.
  induction n as [|n IH]; intros t d Hn H; [lia|].
  inversion H as [w k Hw Hk|v Hv|l ds Hl]; subst t d.
  - split; [repeat constructor; apply Hw|]. exists [k]. split; [split; [exact Hk|exact I]|].
    cbn. apply w_atom. apply (word_means_atom w k Hk).
  - split; [repeat constructor; apply escape_body; exact Hv|]. exists [(TkString, TvStr v)]. split; [split; [reflexivity|exact I]|].
    cbn. apply w_atom. reflexivity.
  - assert (L : Forall (fun xb => lx_ok (fst xb) /\ snd xb = blank1) (flat_map tree_source l) /\
      exists ks, src_kinds (flat_map tree_source l) ks /\ writes_all (map expr_of_datum ds) ks).
    { cbn [tree_size] in Hn. clear H. revert Hn. induction Hl as [|t d l ds Ht Hl IHl]; intro Hn.
      - split; [constructor|]. exists []. split; [exact I|constructor].
      - cbn [fold_right] in Hn. destruct (IH t d ltac:(lia) Ht) as (A & k1 & B & C).
        destruct IHl as (A' & k2 & B' & C'); [lia|]. cbn [flat_map map]. split; [apply Forall_app; auto|].
        exists (k1 ++ k2). split; [apply src_kinds_app_intro; assumption|]. constructor; assumption. }
    destruct L as (A & ks & B & C). cbn [tree_source expr_of_datum]. split.
    + constructor; [cbn; auto|]. apply Forall_app. split; [exact A|]. constructor; [cbn; auto|constructor].
    + exists (open_kind :: ks ++ [close_kind]). split.
      * split; [reflexivity|]. apply src_kinds_app_intro; [exact B|]. split; [reflexivity|exact I].
      * apply w_list. exact C.
Qed.

Lemma parse_inverts_print m off l d : tree_means (TNode l) d ->
  exists p, parse m (src_text (tree_source (TNode l))) off = Val p /\ erase p = d.
Proof.
  intro H. destruct (tree_written (S (tree_size (TNode l))) (TNode l) d (Nat.lt_succ_diag_r _) H) as (A & ks & B & C).
  inversion H as [| |l' ds Hds]; subst l' d. cbn [expr_of_datum] in C.
  destruct (parse_source_list m off (tree_source (TNode l)) (map expr_of_datum ds) [] ks []) as (p & E1 & E2).
  - apply src_ok_spaced. exact A.
  - rewrite app_nil_r. exact B.
  - exact C.
  - reflexivity.
  - reflexivity.
  - exists p. split; [exact E1|]. rewrite E2. cbn [datum_of]. f_equal. rewrite map_map.
    erewrite map_ext; [apply map_id|]. apply datum_expr.
Qed.

(** ** Bracket balance *)
(** Scanning to the closing bracket of depth [d]: the rest behind it. *)
Fixpoint scan (d : nat) (ts : list token) : option (token * list token) :=
  match ts with
  | [] => None
  | t :: ts' =>
    match tk_type t with
    | TkListStart => scan (S d) ts'
    | TkListEnd => match d with S (S d') => scan (S d') ts' | _ => Some (t, ts') end
    | _ => scan d ts'
    end
  end.

Lemma opens_cons t ts : opens (t :: ts) = ((match tk_type t with TkListStart => 1 | _ => 0 end) + opens ts)%nat.
Proof. unfold opens, count_type. cbn [filter]. destruct (tk_type t); reflexivity. Qed.
Lemma closes_cons t ts : closes (t :: ts) = ((match tk_type t with TkListEnd => 1 | _ => 0 end) + closes ts)%nat.
Proof. unfold closes, count_type. cbn [filter]. destruct (tk_type t); reflexivity. Qed.

(** [scan (S d) ts] finds the first place where closing brackets exceed opening ones by d + 1. *)
Lemma scan_some : forall ts d t rest, scan (S d) ts = Some (t, rest) ->
  exists a, ts = a ++ t :: rest /\ tk_type t = TkListEnd /\ (closes a = opens a + d)%nat /\
    forall x y, a = x ++ y -> (closes x <= opens x + d)%nat.
Proof.
  induction ts as [|u ts IH]; intros d t rest H; [discriminate|]. cbn [scan] in H.
  assert (K : forall d', (match tk_type u with TkListStart => S d | TkListEnd => Nat.pred d | _ => d end = d')%nat ->
      (tk_type u = TkListEnd -> d <> O) ->
      scan (S d') ts = Some (t, rest) ->
      exists a, u :: ts = a ++ t :: rest /\ tk_type t = TkListEnd /\ (closes a = opens a + d)%nat /\
       forall x y, a = x ++ y -> (closes x <= opens x + d)%nat).
  { intros d' Ed Hd Hs. destruct (IH d' t rest Hs) as (a & -> & Ht & Hc & Hp).
    exists (u :: a). split; [reflexivity|]. split; [exact Ht|]. rewrite opens_cons, closes_cons. split.
    - destruct (tk_type u); try lia; specialize (Hd eq_refl); lia.
    - intros x y Hxy. destruct x as [|x0 x]; [cbn; lia|]. injection Hxy as <- Hxy. specialize (Hp x y Hxy).
      rewrite opens_cons, closes_cons. destruct (tk_type u); try lia; specialize (Hd eq_refl); lia. }
  destruct (tk_type u) eqn:Eu; try (apply (K d); [reflexivity|discriminate|exact H]).
  - apply (K (S d)); [reflexivity|discriminate|exact H].
  - destruct d as [|d].
    + injection H as -> ->. exists []. cbn [app]. split; [reflexivity|]. split; [exact Eu|]. split; [reflexivity|].
      intros x y Hxy. destruct x; [cbn; lia|discriminate].
    + apply (K d); [reflexivity|discriminate|exact H].
Qed.

Lemma scan_none : forall ts d, scan (S d) ts = None -> forall a b, ts = a ++ b -> (closes a <= opens a + d)%nat.
Proof.
  induction ts as [|u ts IH]; intros d H a b E.
  - destruct a; [cbn; lia|discriminate].
  - destruct a as [|x a]; [cbn; lia|]. injection E as <- E. cbn [scan] in H. rewrite opens_cons, closes_cons.
    destruct (tk_type u) eqn:Eu; try (specialize (IH d H a b E); lia).
    + specialize (IH (S d) H a b E). lia.
    + destruct d as [|d]; [discriminate|]. specialize (IH d H a b E). lia.
Qed.

Lemma pt_scan m lt : forall ts stack cur, no_marks ts ->
  match scan (S (length stack)) ts with
  | Some (t, rest) => if negb (only_comments rest) then pt m (Some lt) true ts (cur :: stack) = Throw (exn_at msg_balance_or_code t m)
                      else exists p, pt m (Some lt) true ts (cur :: stack) = Val (p, rest)
  | None => pt m (Some lt) true ts (cur :: stack) = Throw (exn_at msg_balance lt m)
  end.
Proof.
  induction ts as [|t ts IH]; intros stack cur H; [reflexivity|].
  inversion H as [|? ? Ht Hts]; subst. cbn [scan]. rewrite pt_cons.
  destruct (tk_type t) eqn:Et; try contradiction; try apply (IH stack _ Hts).
  - apply (IH (cur :: stack) [] Hts).
  - destruct stack as [|up st]; cbn [length].
    + cbn [andb]. destruct (negb (only_comments ts)); [reflexivity|]. eauto.
    + apply (IH st _ Hts).
Qed.

Lemma opens_app a b : opens (a ++ b) = (opens a + opens b)%nat.
Proof. unfold opens, count_type. rewrite filter_app, app_length. reflexivity. Qed.
Lemma closes_app a b : closes (a ++ b) = (closes a + closes b)%nat.
Proof. unfold closes, count_type. rewrite filter_app, app_length. reflexivity. Qed.

Lemma last_token_some t ts : exists lt, last_token (t :: ts) = Some lt /\ exists a, t :: ts = a ++ [lt].
Proof.
  unfold last_token. destruct (rev (t :: ts)) as [|lt r] eqn:E.
  - apply (f_equal (@length _)) in E. rewrite rev_length in E. discriminate.
  - exists lt. split; [reflexivity|]. exists (rev r). apply (f_equal (@rev _)) in E. rewrite rev_involutive in E.
    rewrite E. reflexivity.
Qed.

(** The scan finds exactly the complete beginning. *)
Lemma scan_complete t ts tc rest : tk_type t = TkListStart -> scan 1 ts = Some (tc, rest) ->
  exists a, t :: ts = a ++ rest /\ complete a /\ exists b, a = b ++ [tc].
Proof.
  intros Ht H. apply scan_some in H. destruct H as (a & -> & Hc & Ho & Hp).
  exists (t :: a ++ [tc]). split; [cbn [app]; rewrite <- app_assoc; reflexivity|]. split.
  - split; [discriminate|]. split.
    + rewrite opens_cons, closes_cons, opens_app, closes_app, opens_cons, closes_cons, Ht, Hc. cbn. lia.
    + intros x y E Hx Hy. destruct x as [|x0 x]; [congruence|]. injection E as <- E.
      rewrite opens_cons, closes_cons, Ht.
      destruct (@exists_last _ y Hy) as (y' & z & ->). rewrite app_assoc in E. apply app_inj_tail in E. destruct E as [E _].
      specialize (Hp x y' E). lia.
  - exists (t :: a). reflexivity.
Qed.

Lemma scan_none_complete t ts : tk_type t = TkListStart -> scan 1 ts = None -> forall a b, t :: ts = a ++ b -> ~ complete a.
Proof.
  intros Ht H a b E (Hne & Ho & _). destruct a as [|x a]; [congruence|]. injection E as <- E.
  pose proof (scan_none ts 0 H a b E). rewrite opens_cons, closes_cons, Ht in Ho. lia.
Qed.

Lemma complete_unique a b a' b' : a ++ b = a' ++ b' -> complete a -> complete a' -> a = a' /\ b = b'.
Proof.
  intros E (Hne & Ho & Hp) (Hne' & Ho' & Hp').
  assert (L : forall (x y x' y' : list token), x ++ y = x' ++ y' -> (exists z, x' = x ++ z) \/ (exists z, x = x' ++ z)).
  { clear. induction x as [|u x IH]; intros y x' y' E; [left; exists x'; reflexivity|].
    destruct x' as [|u' x']; [right; exists (u :: x); reflexivity|]. injection E as <- E.
    destruct (IH _ _ _ E) as [[z ->]|[z ->]]; [left|right]; exists z; reflexivity. }
  destruct (L _ _ _ _ E) as [[z ->]|[z ->]].
  - destruct z as [|z0 z].
    + rewrite app_nil_r in *. split; [reflexivity|]. apply app_inv_head in E. exact E.
    + specialize (Hp' a (z0 :: z) eq_refl Hne ltac:(discriminate)). lia.
  - destruct z as [|z0 z].
    + rewrite app_nil_r in *. split; [reflexivity|]. apply app_inv_head in E. exact E.
    + specialize (Hp a' (z0 :: z) eq_refl Hne' ltac:(discriminate)). lia.
Qed.

Lemma parse_open m t ts : tk_type t = TkListStart -> no_marks ts ->
  exists lt, (exists a, t :: ts = a ++ [lt]) /\
  match scan 1 ts with
  | Some (tc, rest) => if negb (only_comments rest) then parse_toplevel m (t :: ts) = Throw (exn_at msg_balance_or_code tc m)
                      else exists p, parse_toplevel m (t :: ts) = Val p
  | None => parse_toplevel m (t :: ts) = Throw (exn_at msg_balance lt m)
  end.
Proof.
  intros Ht Hm. destruct (last_token_some t ts) as (lt & El & Ea). exists lt. split; [exact Ea|].
  rewrite parse_toplevel_pt, El. rewrite pt_cons, Ht.
  pose proof (pt_scan m lt ts [] [] Hm) as S. cbn [length] in S. destruct (scan 1 ts) as [[tc rest]|].
  - destruct (negb (only_comments rest)); [rewrite S; reflexivity|]. destruct S as [p ->]. exists p. reflexivity.
  - rewrite S. reflexivity.
Qed.

Lemma balance_accepted m t ts : tk_type t = TkListStart -> no_marks ts ->
  ((exists p, parse_toplevel m (t :: ts) = Val p) <->
   (exists a b, t :: ts = a ++ b /\ complete a /\ all_comments b)).
Proof.
  intros Ht Hm. destruct (parse_open m t ts Ht Hm) as (lt & _ & P). destruct (scan 1 ts) as [[tc rest]|] eqn:S.
  - destruct (scan_complete t ts tc rest Ht S) as (a & Ea & Ca & _).
    destruct (only_comments rest) eqn:Oc; cbn [negb] in P.
    + split; [|auto]. intros _. exists a, rest. split; [exact Ea|]. split; [exact Ca|]. apply only_comments_spec. exact Oc.
    + split; [intros [p Hp]; congruence|]. intros (a' & b' & Ea' & Ca' & Hb').
      rewrite Ea' in Ea. destruct (complete_unique _ _ _ _ Ea Ca' Ca) as [_ ->]. apply only_comments_spec in Hb'. congruence.
  - split; [intros [p Hp]; congruence|]. intros (a & b & Ea & Ca & _). exfalso. exact (scan_none_complete t ts Ht S a b Ea Ca).
Qed.

Lemma balance_rejected m t ts : tk_type t = TkListStart -> no_marks ts ->
  (forall a b, t :: ts = a ++ b -> ~ complete a) ->
  exists lt a, t :: ts = a ++ [lt] /\ parse_toplevel m (t :: ts) = Throw (exn_at msg_balance lt m).
Proof.
  intros Ht Hm Hn. destruct (parse_open m t ts Ht Hm) as (lt & [a Ea] & P). destruct (scan 1 ts) as [[tc rest]|] eqn:S.
  - destruct (scan_complete t ts tc rest Ht S) as (a' & Ea' & Ca & _). exfalso. exact (Hn _ _ Ea' Ca).
  - exists lt, a. split; [exact Ea|exact P].
Qed.

Lemma trailing_code_rejected m t ts a tc b : tk_type t = TkListStart -> no_marks ts ->
  t :: ts = (a ++ [tc]) ++ b -> complete (a ++ [tc]) -> ~ all_comments b ->
  parse_toplevel m (t :: ts) = Throw (exn_at msg_balance_or_code tc m).
Proof.
  intros Ht Hm E Hc Hb. destruct (parse_open m t ts Ht Hm) as (lt & _ & P). destruct (scan 1 ts) as [[tc' rest]|] eqn:S.
  - destruct (scan_complete t ts tc' rest Ht S) as (a' & Ea' & Ca & bb & Eb).
    rewrite E in Ea'. destruct (complete_unique _ _ _ _ Ea' Hc Ca) as [Eq1 Eq2]. subst rest.
    rewrite <- Eq1 in Eb. apply app_inj_tail in Eb. destruct Eb as [_ ->].
    destruct (only_comments b) eqn:Oc; [|exact P]. apply only_comments_spec in Oc. contradiction.
  - exfalso. exact (scan_none_complete t ts Ht S _ _ E Hc).
Qed.

(** ** Quote marks that go wrong *)
Lemma nested_quote_lost m t1 t2 x y tx ty kx ky rest last top cur st :
  tk_type t1 = TkQuote -> tk_type t2 = TkQuote ->
  writes x kx -> map tk_kind tx = kx -> quote_headed x = false ->
  writes y ky -> map tk_kind ty = ky -> quote_headed y = false ->
  exists p, erase p = datum_of (EMark MQuote y) /\
    parse_tokens (S (length (t1 :: t2 :: tx ++ ty ++ rest))) m last top (t1 :: t2 :: tx ++ ty ++ rest) (cur :: st) =
    parse_tokens (S (length rest)) m last top rest ((p :: cur) :: st).
Proof.
  intros H1 H2 Wx Hx Qx Wy Hy Qy.
  destruct (proj1 parses_written x kx Wx tx Hx) as [_ Bx]. destruct (proj1 parses_written y ky Wy ty Hy) as [_ By].
  destruct (Bx Qx m last (ty ++ rest)) as (px & _ & Ex). destruct (By Qy m last rest) as (py & Epy & Ey).
  exists (PList [PSym n_quote; py]). split; [cbn; rewrite Epy; reflexivity|].
  change (pt m last top (t1 :: t2 :: tx ++ ty ++ rest) (cur :: st) = pt m last top rest ((PList [PSym n_quote; py] :: cur) :: st)).
  rewrite pt_cons, H1, pt_cons, H2, Ex. cbn [obind]. rewrite Ey. reflexivity.
Qed.

Lemma quote_before_close_ub m t1 t2 rest last top cur st fuel :
  tk_type t1 = TkQuote -> tk_type t2 = TkListEnd -> (S (length rest) < fuel)%nat ->
  parse_tokens (S fuel) m last top (t1 :: t2 :: rest) (cur :: st) = Undef UBEmptyStack.
Proof.
  intros H1 H2 Hf. rewrite pt_fuel by (cbn [length]; lia). rewrite pt_cons, H1, pt_cons, H2. reflexivity.
Qed.

(** In a script: an opening bracket, written expressions, then the two marks. *)
Lemma nested_quote_script m to l tl kl t1 t2 x y tx ty kx ky tc :
  tk_type to = TkListStart -> writes_all l kl -> map tk_kind tl = kl ->
  tk_type t1 = TkQuote -> tk_type t2 = TkQuote ->
  writes x kx -> map tk_kind tx = kx -> quote_headed x = false ->
  writes y ky -> map tk_kind ty = ky -> quote_headed y = false -> tk_type tc = TkListEnd ->
  exists p, parse_toplevel m (to :: tl ++ t1 :: t2 :: tx ++ ty ++ [tc]) = Val p /\
    erase p = DList (map datum_of l ++ [datum_of (EMark MQuote y)]).
Proof.
  intros Ho Wl Hl H1 H2 Wx Hx Qx Wy Hy Qy Hc. rewrite parse_toplevel_pt. set (last := last_token _). clearbody last.
  rewrite pt_cons, Ho.
  destruct (proj2 parses_written l kl Wl tl Hl m last true (t1 :: t2 :: tx ++ ty ++ [tc]) [] []) as (ps & Eps & E). rewrite E.
  destruct (nested_quote_lost m t1 t2 x y tx ty kx ky [tc] last true (rev ps ++ []) [] H1 H2 Wx Hx Qx Wy Hy Qy) as (p & Ep & Eq).
  unfold pt. rewrite Eq. fold (pt m last true [tc] [p :: rev ps ++ []]). rewrite pt_cons, Hc. cbn [andb negb only_comments forallb obind fst].
  eexists. split; [reflexivity|]. rewrite app_nil_r. cbn [rev]. rewrite rev_involutive. cbn [erase]. rewrite map_app, Eps.
  cbn [map]. rewrite Ep. reflexivity.
Qed.

Lemma quote_before_close_script m to l tl kl t1 t2 rest :
  tk_type to = TkListStart -> writes_all l kl -> map tk_kind tl = kl ->
  tk_type t1 = TkQuote -> tk_type t2 = TkListEnd ->
  parse_toplevel m (to :: tl ++ t1 :: t2 :: rest) = Undef UBEmptyStack.
Proof.
  intros Ho Wl Hl H1 H2. rewrite parse_toplevel_pt. set (last := last_token _). clearbody last.
  rewrite pt_cons, Ho.
  destruct (proj2 parses_written l kl Wl tl Hl m last true (t1 :: t2 :: rest) [] []) as (ps & Eps & E). rewrite E.
  rewrite pt_cons, H1, pt_cons, H2. reflexivity.
Qed.

(** ** Where errors point *)
Lemma unbalanced_at : forall m t ts, tk_type t = TkListStart -> no_marks ts -> (forall a b, t :: ts = a ++ b -> ~ complete a) ->
  exists lt a e, t :: ts = a ++ [lt] /\ parse_toplevel m (t :: ts) = Throw e /\ points_at lt $"Brackets out of balance" m e.
Proof.
  intros m t ts T N C. destruct (balance_rejected m t ts T N C) as (lt & a & E & P). exists lt, a. eexists. split; [exact E|]. split; [exact P|]. eexists. split; [reflexivity|]. repeat split.
Qed.
Lemma trailing_at : forall m t ts a tc b, tk_type t = TkListStart -> no_marks ts -> t :: ts = (a ++ [tc]) ++ b -> complete (a ++ [tc]) -> ~ all_comments b ->
  exists e, parse_toplevel m (t :: ts) = Throw e /\ points_at tc $"Brackets out of balance or unexpected script code" m e.
Proof.
  intros m t ts a tc b T N E C B. rewrite (trailing_code_rejected m t ts a tc b T N E C B). eexists. split; [reflexivity|]. eexists. split; [reflexivity|]. repeat split.
Qed.
