(** Properties C07 - C09: parsing. *)
Require Import String Ascii List ZArith Bool Lia.
From Verif Require Import Base CppString Num Token Tokenizer Parser SpecLex SpecParse ParseProofs.
Import ListNotations.

(** ** C07: parsing inverts printing *)
Theorem C07_parse_inverts_print : forall m off l d,
  tree_means (TNode l) d ->
  exists p, parse m (src_text (tree_source (TNode l))) off = Val p /\ erase p = d.
Proof. exact parse_inverts_print. Qed.
Print Assumptions C07_parse_inverts_print.

Example C07_parse_inverts_print_ex :
  let t := TNode [TWord $"f"; TText $"a ""b"; TNode []; TNode [TNode [TWord $"-7"; TWord $"#t"]]] in
  src_text (tree_source t) = $"( f ""a \""b"" ( ) ( ( -7 #t ) ) ) " /\
  tree_means t (DList [DAtom (TkSymbol, TvStr $"f"); DAtom (TkString, TvStr $"a ""b"); DList [];
     DList [DList [DAtom (TkInt, TvInt (-7)); DAtom (TkTrue, TvBool true)]]]).
Proof.
  cbv zeta. split; [reflexivity|]. apply tm_node.
  repeat (apply Forall2_cons || apply Forall2_nil || apply tm_node || apply tm_word || apply tm_text);
    try reflexivity; try (split; [discriminate|reflexivity]).
  - apply wm_symbol. split; [split; [discriminate|reflexivity]|]. right. right. split; [reflexivity|]. cbn. intuition discriminate.
  - apply wm_int; [|lia]. change (-7)%Z with (- dec_value 0 $"7")%Z. apply it_minus; [discriminate|reflexivity].
  - apply wm_true. tauto.
Qed.

(** The same for every way to write the expression (spaces, escapes, comments, quote marks). *)
Theorem C07_parse_written_source : forall m off s l cs1 ks cs2,
  src_ok s -> src_kinds s (cs1 ++ ks ++ cs2) -> writes (EList l) ks ->
  forallb comment_kind cs1 = true -> forallb comment_kind cs2 = true ->
  exists p, parse m (src_text s) off = Val p /\ erase p = datum_of (EList l).
Proof. exact parse_source_list. Qed.
Print Assumptions C07_parse_written_source.

Example C07_parse_written_source_ex :
  let s := [(LxOpen, []); (LxComment $"c", []); (LxQuote, []); (LxOpen, []); (LxClose, []); (LxClose, []); (LxComment $"d", [])] in
  src_text s = $"(;c" ++ [c_nl] ++ $"'());d" ++ [c_nl] /\ src_ok s /\
  exists ks, src_kinds s ([] ++ ks ++ [(TkComment, TvStr ($";d" ++ [c_nl]))]) /\ writes (EList [EMark MQuote (EList [])]) ks.
Proof.
  cbv zeta. split; [reflexivity|]. split.
  - cbn. repeat split; try discriminate; auto; try intuition discriminate.
  - exists [open_kind; (TkComment, TvStr ($";c" ++ [c_nl])); mark_kind MQuote; open_kind; close_kind; close_kind].
    split; [cbn; repeat split|].
    apply (w_list _ [(TkComment, TvStr ($";c" ++ [c_nl])); mark_kind MQuote; open_kind; close_kind]).
    apply ws_comment. apply (ws_cons _ [] [mark_kind MQuote; open_kind; close_kind] []); [|constructor].
    apply w_mark; [reflexivity|]. apply (w_list [] []). constructor.
Qed.

(** ** C08: bracket balance *)
Theorem C08_accepted_iff_balanced : forall m t ts,
  tk_type t = TkListStart -> no_marks ts ->
  ((exists p, parse_toplevel m (t :: ts) = Val p) <->
   (exists a b, t :: ts = a ++ b /\ complete a /\ all_comments b)).
Proof. exact balance_accepted. Qed.
Print Assumptions C08_accepted_iff_balanced.

Theorem C08_unbalanced_error : forall m t ts,
  tk_type t = TkListStart -> no_marks ts ->
  (forall a b, t :: ts = a ++ b -> ~ complete a) ->
  exists lt a e, t :: ts = a ++ [lt] /\
    parse_toplevel m (t :: ts) = Throw e /\ points_at lt $"Brackets out of balance" m e.
Proof. exact unbalanced_at. Qed.
Print Assumptions C08_unbalanced_error.

Theorem C08_trailing_code_error : forall m t ts a tc b,
  tk_type t = TkListStart -> no_marks ts ->
  t :: ts = (a ++ [tc]) ++ b -> complete (a ++ [tc]) -> ~ all_comments b ->
  exists e, parse_toplevel m (t :: ts) = Throw e /\ points_at tc $"Brackets out of balance or unexpected script code" m e.
Proof. exact trailing_at. Qed.
Print Assumptions C08_trailing_code_error.

Example C08_ex : exists t ts, tokenize $"(a (b) 1" 0 = Val (t :: ts) /\ tk_type t = TkListStart /\ no_marks ts /\
  (forall a b, t :: ts = a ++ b -> ~ complete a).
Proof.
  eexists _, _. split; [vm_compute; reflexivity|]. split; [reflexivity|]. split; [repeat constructor|].
  intros a b E (Hne & Ho & _). do 6 (destruct a as [|? a]; [try congruence; vm_compute in Ho; discriminate|injection E as <- E]).
  destruct a; [vm_compute in Ho; discriminate|discriminate].
Qed.

Example C08_ex2 : exists t ts a tc b, tokenize $"(a) b" 0 = Val (t :: ts) /\ t :: ts = (a ++ [tc]) ++ b /\
  no_marks ts /\ complete (a ++ [tc]) /\ ~ all_comments b.
Proof.
  eexists _, _, [_; _], _, [_]. split; [vm_compute; reflexivity|]. split; [reflexivity|]. split; [repeat constructor|].
  split.
  - split; [discriminate|]. split; [reflexivity|]. intros a b E Ha Hb.
    destruct a as [|? a]; [congruence|]. injection E as <- E. destruct a as [|? a]; [cbn; lia|]. injection E as <- E.
    destruct a as [|? a]; [cbn; lia|]. injection E as <- E. destruct a; [|discriminate]. cbn in E. congruence.
  - intro H. inversion H. discriminate.
Qed.

(** The parser always comes to an end: it never runs out of the fuel it is given. *)
Theorem C08_parser_terminates : forall m ts, parse_toplevel m ts <> NoFuel.
Proof.
  exact (fun m ts H => pt_never_nofuel m (last_token ts) (S (length ts)) true ts [] (Nat.lt_succ_diag_r _)
    (match pt m (last_token ts) true ts [] as o return (let? r := o in Val (fst r)) = NoFuel -> o = NoFuel with
     | NoFuel => fun _ => eq_refl | Val _ => fun h => ltac:(discriminate h) | Throw _ => fun h => ltac:(discriminate h)
     | Undef _ => fun h => ltac:(discriminate h) | Unmod _ => fun h => ltac:(discriminate h) end H)).
Qed.
Print Assumptions C08_parser_terminates.

(** ** C09: quote marks *)
(** The general statement is C07_parse_written_source; here for one mark in front of one expression. *)
Theorem C09_mark_abbreviates : forall m off s k e ks,
  src_ok s -> quote_headed e = false -> writes e ks ->
  src_kinds s (open_kind :: (mark_kind k :: ks) ++ [close_kind]) ->
  exists p, parse m (src_text s) off = Val p /\
    erase p = DList [DList [DAtom (TkSymbol, TvStr (mark_name k)); datum_of e]].
Proof.
  exact (fun m off s k e ks Hok Hq W Hk =>
    parse_source_list m off s [EMark k e] [] (open_kind :: (mark_kind k :: ks) ++ [close_kind]) [] Hok
      (eq_rect_r (src_kinds s) Hk (app_nil_r _))
      (w_list _ _ (eq_rect _ (writes_all [EMark k e]) (ws_cons _ [] _ [] (w_mark k e ks Hq W) ws_nil) _ (app_nil_r (mark_kind k :: ks))))
      eq_refl eq_refl).
Qed.
Print Assumptions C09_mark_abbreviates.

Example C09_mark_abbreviates_ex :
  let s := [(LxOpen, []); (LxCommaAt, []); (LxWord $"x", []); (LxClose, [])] in
  src_text s = $"(,@x)" /\ src_ok s /\ quote_headed (EAtom (TkSymbol, TvStr $"x")) = false /\
  src_kinds s (open_kind :: (mark_kind MSplice :: [(TkSymbol, TvStr $"x")]) ++ [close_kind]).
Proof.
  cbv zeta. split; [reflexivity|]. split; [cbn; repeat split; try discriminate; auto|]. split; [reflexivity|].
  cbn. repeat split. apply wm_symbol. split; [split; [discriminate|reflexivity]|].
  right. right. split; [reflexivity|]. cbn. intuition discriminate.
Qed.

(** Two quote marks: the first datum is lost, the second one is quoted once. *)
Theorem C09_nested_quote_loses_datum : forall m to l tl kl t1 t2 x y tx ty kx ky tc,
  tk_type to = TkListStart -> writes_all l kl -> map tk_kind tl = kl ->
  tk_type t1 = TkQuote -> tk_type t2 = TkQuote ->
  writes x kx -> map tk_kind tx = kx -> quote_headed x = false ->
  writes y ky -> map tk_kind ty = ky -> quote_headed y = false -> tk_type tc = TkListEnd ->
  exists p, parse_toplevel m (to :: tl ++ t1 :: t2 :: tx ++ ty ++ [tc]) = Val p /\
    erase p = DList (map datum_of l ++ [datum_of (EMark MQuote y)]).
Proof. exact nested_quote_script. Qed.
Print Assumptions C09_nested_quote_loses_datum.

Example C09_nested_quote_loses_datum_ex : exists p, parse [] $"(f ''x y)" 0 = Val p /\
  erase p = DList [DAtom (TkSymbol, TvStr $"f"); DList [DAtom (TkSymbol, TvStr $"quote"); DAtom (TkSymbol, TvStr $"y")]].
Proof. eexists. split; vm_compute; reflexivity. Qed.

(** A quote mark before a closing bracket is undefined behaviour. *)
Theorem C09_quote_before_close_undefined : forall m to l tl kl t1 t2 rest,
  tk_type to = TkListStart -> writes_all l kl -> map tk_kind tl = kl ->
  tk_type t1 = TkQuote -> tk_type t2 = TkListEnd ->
  parse_toplevel m (to :: tl ++ t1 :: t2 :: rest) = Undef UBEmptyStack.
Proof. exact quote_before_close_script. Qed.
Print Assumptions C09_quote_before_close_undefined.

Example C09_quote_before_close_undefined_ex : parse [] $"(f 1 ')" 0 = Undef UBEmptyStack.
Proof. vm_compute. reflexivity. Qed.
