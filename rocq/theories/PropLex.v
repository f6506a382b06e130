(** Properties C01 - C06: reading source text. *)
Require Import String Ascii List ZArith Bool Lia.
From Verif Require Import Base CppString Num Token Tokenizer SpecLex TokProofs ClassifyProofs LexProofs.
Import ListNotations.

(** ** C01: string literals *)
Theorem C01_string_literal : forall off s1 src val b s2 ks1 ks2,
  str_body src val ->
  src_ok (s1 ++ (LxString src val, b) :: s2) -> src_kinds s1 ks1 -> src_kinds s2 ks2 ->
  kinds_of (tokenize (src_text (s1 ++ (LxString src val, b) :: s2)) off) =
  Val (ks1 ++ (TkString, TvStr val) :: ks2).
Proof. exact string_literal. Qed.
Print Assumptions C01_string_literal.

(** Brackets, an escaped quote, an escaped backslash, a semicolon and a raw newline. *)
Example C01_string_literal_ex :
  let body := $"a\""b\\;" ++ [c_nl] in let val := $"a""b\;" ++ [c_nl] in
  let s1 := [(LxOpen, []); (LxWord $"f", $" ")] in let s2 := [(LxWord $"x", []); (LxClose, [])] in
  str_body body val /\ src_ok (s1 ++ (LxString body val, []) :: s2) /\
  src_kinds s1 [(TkListStart, TvStr $"("); (TkSymbol, TvStr $"f")] /\
  src_kinds s2 [(TkSymbol, TvStr $"x"); (TkListEnd, TvStr $")")].
Proof.
  assert (B : str_body ($"a\""b\\;" ++ [c_nl]) ($"a""b\;" ++ [c_nl])).
  { cbn. apply sb_raw; [reflexivity|discriminate|discriminate|]. apply sb_dquote.
    apply sb_raw; [reflexivity|discriminate|discriminate|]. apply sb_bslash.
    do 2 (apply sb_raw; [reflexivity|discriminate|discriminate|]). constructor. }
  cbv zeta. split; [exact B|]. split.
  - cbn. repeat split; try discriminate; auto; try (intro; discriminate). 
  - split; cbn [src_kinds lx_means]; repeat split; apply wm_symbol; (split; [split; [discriminate|reflexivity]|]);
      right; right; (split; [reflexivity|]); cbn; intuition discriminate.
Qed.

Theorem C01_escaping_any_text : forall val, forallb is_7bit val = true ->
  str_body (escape val) val /\
  kinds_of (tokenize (lx_text (LxString (escape val) val)) 0) = Val [(TkString, TvStr val)].
Proof. exact (fun val H => conj (escape_body val H) (string_escaped_alone val H)). Qed.
Print Assumptions C01_escaping_any_text.

Example C01_escaping_any_text_ex : forallb is_7bit ($"say ""hi""" ++ [c_nl; c_bslash; c_nul]) = true.
Proof. reflexivity. Qed.

Theorem C01_bad_escape_rejected : forall off s ks src val c rest,
  src_ok s -> src_closed s -> src_kinds s ks -> str_body src val -> bad_escape c = true ->
  tokenize (src_text s ++ [c_dquote] ++ src ++ [c_bslash; c] ++ rest) off =
  Throw (ELispBase ($"Invalid character after backslash " ++ [c])).
Proof. exact bad_escape_rejected. Qed.
Print Assumptions C01_bad_escape_rejected.

Example C01_bad_escape_rejected_ex :
  src_ok [(LxOpen, [])] /\ src_closed [(LxOpen, [])] /\ str_body $"ab" $"ab" /\ bad_escape "q" = true.
Proof.
  repeat split; auto; try (cbn; tauto). repeat (apply sb_raw; [reflexivity|discriminate|discriminate|]). constructor.
Qed.

(** Every literal is valid or rejected ([src] is what stands before the closing quote). *)
Theorem C01_literal_valid_or_rejected : forall src rest,
  forallb is_7bit src = true ->
  (forall a b val, src = a ++ c_dquote :: b -> ~ str_body a val) ->
  (forall a val, src = a ++ [c_bslash] -> ~ str_body a val) ->
  (exists val, str_body src val) \/
  (exists c, tokenize ([c_dquote] ++ src ++ rest) 0 = Throw (ELispBase ($"Invalid character after backslash " ++ [c]))).
Proof. exact literal_valid_or_rejected. Qed.
Print Assumptions C01_literal_valid_or_rejected.

Example C01_literal_valid_or_rejected_ex :
  forallb is_7bit $"\q" = true /\
  (forall a b val, $"\q" = a ++ c_dquote :: b -> ~ str_body a val) /\
  (forall a val, $"\q" = a ++ [c_bslash] -> ~ str_body a val).
Proof.
  split; [reflexivity|]. split.
  - intros a b val H. destruct a as [|x [|y [|z a]]]; discriminate.
  - intros a val H. destruct a as [|x [|y [|z a]]]; discriminate.
Qed.

(** ** C02: tokens written out are read back *)
Theorem C02_tokens_read_back : forall off s ks,
  src_ok s -> src_kinds s ks -> kinds_of (tokenize (src_text s) off) = Val ks.
Proof. exact source_kinds. Qed.
Print Assumptions C02_tokens_read_back.

(** (def x '(-5 nil)) ;c *)
Example C02_tokens_read_back_ex :
  let s := [(LxOpen, []); (LxWord $"def", $" "); (LxWord $"x", [c_tab; c_nl]); (LxQuote, []); (LxOpen, $" ");
            (LxWord $"-5", $" "); (LxWord $"nil", []); (LxClose, []); (LxClose, $" "); (LxComment $"c", [])] in
  src_text s = $"(def x" ++ [c_tab; c_nl] ++ $"'( -5 nil)) ;c" ++ [c_nl] /\ src_ok s /\
  src_kinds s [(TkListStart, TvStr $"("); (TkSymbol, TvStr $"def"); (TkSymbol, TvStr $"x"); (TkQuote, TvStr $"'");
     (TkListStart, TvStr $"("); (TkInt, TvInt (-5)); (TkNil, TvInt 0); (TkListEnd, TvStr $")"); (TkListEnd, TvStr $")");
     (TkComment, TvStr ($";c" ++ [c_nl]))].
Proof.
  cbv zeta. split; [reflexivity|]. split.
  - cbn. repeat split; try discriminate; auto; try (intro; discriminate); intuition discriminate.
  - cbn [src_kinds lx_means]. repeat split.
    + apply wm_symbol; (split; [split; [discriminate|reflexivity]|]);
      right; right; (split; [reflexivity|]); cbn; intuition discriminate.
    + apply wm_symbol; (split; [split; [discriminate|reflexivity]|]);
      right; right; (split; [reflexivity|]); cbn; intuition discriminate.
    + apply wm_int; [|lia]. change (-5)%Z with (- dec_value 0 $"5")%Z. apply it_minus; [discriminate|reflexivity].
    + apply wm_nil. reflexivity.
Qed.

(** ** C03: comments *)
Theorem C03_comment_inserted : forall off s ks c text,
  src_ok s -> src_closed s -> src_no_semi s -> src_means 1 s ks -> lx_ok (LxComment c) ->
  forall vs, views_of (tokenize text off) = Val vs ->
  views_of (tokenize (src_text s ++ text) off) = Val (ks ++ map (shift_line (newlines (src_text s))) vs) /\
  views_of (tokenize (src_text s ++ [c_semi] ++ c ++ [c_nl] ++ text) off) =
    Val (ks ++ (TkComment, TvStr ([c_semi] ++ c ++ [c_nl]), 1 + newlines (src_text s))%Z
            :: map (shift_line (newlines (src_text s) + 1)) vs).
Proof. exact comment_inserted_views. Qed.
Print Assumptions C03_comment_inserted.

Example C03_comment_inserted_ex :
  let s := [(LxOpen, []); (LxWord $"f", [c_nl])] in
  src_ok s /\ src_closed s /\ src_no_semi s /\ lx_ok (LxComment $" don't (") /\
  src_means 1 s [((TkListStart, TvStr $"("), 1%Z); ((TkSymbol, TvStr $"f"), 1%Z)] /\
  views_of (tokenize $"'x 2.5)" 0) = Val [((TkQuote, TvStr $"'"), 1%Z); ((TkSymbol, TvStr $"x"), 1%Z);
      ((TkDouble, TvDouble (SpecFloat.S754_finite false 5629499534213120 (-51))), 1%Z); ((TkListEnd, TvStr $")"), 1%Z)].
Proof.
  cbv zeta. split; [cbn; repeat split; try discriminate; auto; intro; discriminate|]. split; [cbn; left; discriminate|].
  split; [repeat constructor|]. split; [cbn; repeat split; try discriminate; intuition discriminate|].
  split; [|vm_compute; reflexivity].
  cbn [src_means lx_means]. repeat split. apply wm_symbol; (split; [split; [discriminate|reflexivity]|]);
      right; right; (split; [reflexivity|]); cbn; intuition discriminate.
Qed.

(** An error later in the text is the same error with the comment inserted. *)
Theorem C03_comment_inserted_error : forall off s ks c text e,
  src_ok s -> src_closed s -> src_no_semi s -> src_means 1 s ks -> lx_ok (LxComment c) ->
  tokenize text off = Throw e ->
  tokenize (src_text s ++ text) off = Throw e /\ tokenize (src_text s ++ [c_semi] ++ c ++ [c_nl] ++ text) off = Throw e.
Proof. exact comment_inserted_error. Qed.
Print Assumptions C03_comment_inserted_error.

Example C03_comment_inserted_error_ex :
  src_ok [] /\ src_closed [] /\ src_no_semi [] /\ src_means 1 [] [] /\ lx_ok (LxComment $"c") /\
  tokenize $"99999999999 " 0 = Throw EOutOfRange.
Proof. cbn; repeat split; try discriminate; try constructor; intuition discriminate. Qed.

(** The exception: an empty comment swallows the rest of the script. *)
Theorem C03_empty_comment_swallows : forall off s ks text,
  src_ok s -> src_closed s -> src_no_semi s -> src_means 1 s ks -> forallb is_7bit text = true ->
  views_of (tokenize (src_text s ++ [c_semi; c_nl] ++ text) off) =
  Val (ks ++ [(TkComment, TvStr ([c_semi; c_nl] ++ text), 1 + newlines (src_text s))%Z]).
Proof. exact bare_comment_views. Qed.
Print Assumptions C03_empty_comment_swallows.

Example C03_empty_comment_swallows_ex :
  src_ok [(LxOpen, [])] /\ src_closed [(LxOpen, [])] /\ src_means 1 [(LxOpen, [])] [((TkListStart, TvStr $"("), 1%Z)] /\
  forallb is_7bit $"(println 1)" = true.
Proof. cbn; repeat split; auto; intro; exact I. Qed.

(** ** C04: line numbers *)
Theorem C04_line_of_token : forall off s1 x b s2 ks,
  src_ok (s1 ++ (x, b) :: s2) -> src_no_semi (s1 ++ (x, b) :: s2) -> src_kinds (s1 ++ (x, b) :: s2) ks ->
  exists vs, views_of (tokenize (src_text (s1 ++ (x, b) :: s2)) off) = Val vs /\ map fst vs = ks /\
    option_map snd (nth_error vs (length s1)) = Some (1 + newlines (src_text s1) + lx_inner_newlines x)%Z.
Proof. exact lines_exact. Qed.
Print Assumptions C04_line_of_token.

Example C04_line_of_token_ex :
  let s1 := [(LxOpen, [c_nl; c_nl]); (LxComment $"c", $" ")] in
  let s := s1 ++ (LxString [c_nl] [c_nl], []) :: [(LxClose, [])] in
  src_ok s /\ src_no_semi s /\ src_kinds s [(TkListStart, TvStr $"("); (TkComment, TvStr ($";c" ++ [c_nl])); (TkString, TvStr [c_nl]); (TkListEnd, TvStr $")")] /\
  (1 + newlines (src_text s1) + lx_inner_newlines (LxString [c_nl] [c_nl]) = 5)%Z.
Proof.
  cbv zeta. split.
  - assert (str_body [c_nl] [c_nl]) by (apply sb_raw; [reflexivity|discriminate|discriminate|constructor]).
    cbn. repeat split; try discriminate; auto; intuition discriminate.
  - split; [repeat constructor; cbn; intuition discriminate|]. split; [|reflexivity]. cbn. repeat split.
Qed.

(** The restriction is needed: a semicolon in a string literal counts as a line. *)
Theorem C04_semicolon_in_string_refuted : exists s ks vs,
  src_ok s /\ src_kinds s ks /\ newlines (src_text s) = 0%Z /\
  views_of (tokenize (src_text s) 0) = Val vs /\ Exists (fun v => snd v = 2%Z) vs.
Proof.
  exact (ex_intro _ [(LxString $";" $";", [])] (ex_intro _ [(TkString, TvStr $";")] (ex_intro _ [((TkString, TvStr $";"), 2%Z)]
    (conj (conj (sb_raw c_semi [] [] eq_refl ltac:(discriminate) ltac:(discriminate) sb_nil) (conj eq_refl (conj (fun _ => I) I)))
    (conj (conj eq_refl I) (conj eq_refl (conj eq_refl (Exists_cons_hd (fun v => snd v = 2%Z) ((TkString, TvStr $";"), 2%Z) [] eq_refl)))))))).
Qed.
Print Assumptions C04_semicolon_in_string_refuted.

(** ** C05: no text dropped *)
Theorem C05_no_text_dropped : forall off text ks,
  simple_text text -> Forall2 piece_means (words text) ks ->
  kinds_of (tokenize text off) = Val ks /\ concat (words text) = filter (fun c => negb (is_space c)) text.
Proof. exact no_text_dropped. Qed.
Print Assumptions C05_no_text_dropped.

Example C05_no_text_dropped_ex :
  simple_text $"(a b)c" /\ words $"(a b)c" = [$"("; $"a"; $"b"; $")"; $"c"] /\
  piece_means $"(" (TkListStart, TvStr $"(") /\ piece_means $"a" (TkSymbol, TvStr $"a").
Proof.
  split; [reflexivity|]. split; [reflexivity|]. split; [left; auto|]. right. right. apply wm_symbol.
  split; [split; [discriminate|reflexivity]|]. right. right. split; [reflexivity|]. cbn. intuition discriminate.
Qed.

Theorem C05_one_token_per_word : forall off text ts,
  simple_text text -> tokenize text off = Val ts -> length ts = length (words text).
Proof. exact one_token_per_word. Qed.
Print Assumptions C05_one_token_per_word.

Example C05_one_token_per_word_ex : simple_text $"(+ 1.5 x)" /\ exists ts, tokenize $"(+ 1.5 x)" 0 = Val ts.
Proof. split; [reflexivity|]. eexists. vm_compute. reflexivity. Qed.

(** Outside that alphabet text is lost: a'b is read as 'b. *)
Theorem C05_symbol_dropped_refuted :
  kinds_of (tokenize $"(a'b c""d"")" 0) =
  Val [(TkListStart, TvStr $"("); (TkQuote, TvStr $"'"); (TkSymbol, TvStr $"b"); (TkString, TvStr $"d"); (TkListEnd, TvStr $")")].
Proof. exact eq_refl. Qed.
Print Assumptions C05_symbol_dropped_refuted.

(** ** C06: integer literals *)
Theorem C06_int_literal : forall off w z, int_text w z -> (- 2 ^ 31 <= z < 2 ^ 31)%Z ->
  kinds_of (tokenize w off) = Val [(TkInt, TvInt z)].
Proof. exact int_literal_in_range. Qed.
Print Assumptions C06_int_literal.

Example C06_int_literal_ex : int_text $"-0042" (-42).
Proof. change (-42)%Z with (- dec_value 0 $"0042")%Z. apply it_minus; [discriminate|reflexivity]. Qed.

Theorem C06_out_of_range_throws : forall off s ks w z ch rest,
  src_ok s -> src_closed s -> src_kinds s ks ->
  int_text w z -> ~ (- 2 ^ 31 <= z < 2 ^ 31)%Z -> (is_space ch = true \/ ch = c_lpar \/ ch = c_rpar) ->
  tokenize (src_text s ++ w ++ ch :: rest) off = Throw EOutOfRange.
Proof. exact int_literal_out_of_range. Qed.
Print Assumptions C06_out_of_range_throws.

Example C06_out_of_range_throws_ex : int_text $"2147483648" 2147483648 /\ ~ (- 2 ^ 31 <= 2147483648 < 2 ^ 31)%Z.
Proof.
  split; [|lia]. change 2147483648%Z with (dec_value 0 $"2147483648"). apply it_pos; [discriminate|reflexivity].
Qed.

Theorem C06_printed_int_is_literal : forall z, int_text (z_to_string z) z.
Proof. exact z_to_string_int_text. Qed.
Print Assumptions C06_printed_int_is_literal.

Example C06_printed_int_is_literal_ex : z_to_string (-2147483648) = $"-2147483648".
Proof. reflexivity. Qed.
