(** Specification vocabulary for the lexical properties.  Nothing in this file
    refers to the tokenizer or to its state machine: it says what a source
    text is made of, how it is written and what each piece means. *)
Require Import String Ascii List ZArith Bool Lia.
From Verif Require Import Base Num Token.
Import ListNotations.

(** Characters that can be part of a word: 7-bit, not blank and not one of ( ) ; ' ` , double quote and backslash. *)
Definition special_chars : str := [c_lpar; c_rpar; c_semi; c_quote; c_bquote; c_comma; c_dquote; c_bslash].
Definition plain_char (c : ascii) : bool :=
  is_7bit c && negb (is_space c) && negb (existsb (Ascii.eqb c) special_chars).
Definition is_word (w : str) : Prop := w <> [] /\ forallb plain_char w = true.
Definition is_blank (w : str) : Prop := forallb is_space w = true.

(** Numbers of occurrences. *)
Fixpoint count_char (c : ascii) (s : str) : Z :=
  match s with
  | [] => 0
  | d :: s' => (if Ascii.eqb d c then 1 else 0) + count_char c s'
  end%Z.
Definition newlines (s : str) : Z := count_char c_nl s.

(** [str_body src val]: the characters [src] between two double quotes denote the text [val].
    Backslash and double quote have to be escaped; newline, tab and carriage
    return may be escaped or written raw; all other 7-bit characters are raw.
    A backslash before a blank, a bracket, a semicolon, a quote mark, a backquote or a comma
    denotes nothing; before any other character it is an error ([bad_escape]). *)
Definition idle_escape (c : ascii) : bool :=
  is_space c || existsb (Ascii.eqb c) [c_lpar; c_rpar; c_semi; c_quote; c_bquote; c_comma].
Definition bad_escape (c : ascii) : bool :=
  plain_char c && negb (existsb (Ascii.eqb c) $"nrt").
Inductive str_body : str -> str -> Prop :=
| sb_nil : str_body [] []
| sb_raw : forall c src val, is_7bit c = true -> c <> c_dquote -> c <> c_bslash ->
    str_body src val -> str_body (c :: src) (c :: val)
| sb_dquote : forall src val, str_body src val -> str_body (c_bslash :: c_dquote :: src) (c_dquote :: val)
| sb_bslash : forall src val, str_body src val -> str_body (c_bslash :: c_bslash :: src) (c_bslash :: val)
| sb_n : forall src val, str_body src val -> str_body (c_bslash :: "n"%char :: src) (c_nl :: val)
| sb_t : forall src val, str_body src val -> str_body (c_bslash :: "t"%char :: src) (c_tab :: val)
| sb_r : forall src val, str_body src val -> str_body (c_bslash :: "r"%char :: src) (c_cr :: val)
| sb_idle : forall c src val, idle_escape c = true -> str_body src val -> str_body (c_bslash :: c :: src) (c :: val).

(** The canonical way to write a text: escape what has to be escaped. *)
Fixpoint escape (val : str) : str :=
  match val with
  | [] => []
  | c :: val' =>
    if Ascii.eqb c c_dquote || Ascii.eqb c c_bslash then c_bslash :: c :: escape val' else c :: escape val'
  end.

(** The meaning of words that have one independently of the number syntax. *)
Definition reserved_words : list str :=
  [$"TRUE"; $"#T"; $"FALSE"; $"#F"; $"NIL"; $"INF"; $"INFINITY"; $"NAN"].
(** A symbol: a word that does not begin like a number and is not reserved, or one of the
    operator names that begin with a sign. *)
Definition number_start (c : ascii) : bool :=
  is_digit c || Ascii.eqb c "+" || Ascii.eqb c "-" || Ascii.eqb c "." .
Definition symbol_text (w : str) : Prop :=
  is_word w /\
  (w = $"+" \/ w = $"-" \/
   (match w with c :: _ => number_start c = false | [] => False end /\
    ~ In (map to_upper_c w) reserved_words)).

(** Decimal integer texts: optional sign, at least one digit. *)
Fixpoint dec_value (acc : Z) (ds : str) : Z :=
  match ds with
  | [] => acc
  | c :: ds' => dec_value (acc * 10 + (Z.of_nat (nat_of_ascii c) - 48))%Z ds'
  end.
Inductive int_text : str -> Z -> Prop :=
| it_pos : forall ds, ds <> [] -> forallb is_digit ds = true -> int_text ds (dec_value 0 ds)
| it_plus : forall ds, ds <> [] -> forallb is_digit ds = true -> int_text ("+"%char :: ds) (dec_value 0 ds)
| it_minus : forall ds, ds <> [] -> forallb is_digit ds = true -> int_text ("-"%char :: ds) (- dec_value 0 ds)%Z.

(** What a word means: an integer literal in the range of a 32-bit int, a
    boolean, nil (in any case) or a symbol.  Words with another meaning (floating point
    literals, integer literals out of range) are not covered by this relation. *)
Inductive word_means : str -> toktype * tokval -> Prop :=
| wm_int : forall w z, int_text w z -> (- 2 ^ 31 <= z < 2 ^ 31)%Z -> word_means w (TkInt, TvInt z)
| wm_true : forall w, w = $"true" \/ w = $"#t" -> word_means w (TkTrue, TvBool true)
| wm_false : forall w, w = $"false" \/ w = $"#f" -> word_means w (TkFalse, TvBool false)
| wm_nil : forall w, map to_upper_c w = $"NIL" -> word_means w (TkNil, TvInt 0)
| wm_symbol : forall w, symbol_text w -> word_means w (TkSymbol, TvStr w).

(** The pieces a source text is written from. *)
Inductive lexeme :=
| LxOpen | LxClose | LxQuote | LxBackquote | LxComma | LxCommaAt
| LxWord (w : str)                (* symbol, number, boolean, nil *)
| LxString (src val : str)        (* the written characters and the text they denote *)
| LxComment (c : str).            (* the text between semicolon and newline *)

Definition lx_ok (x : lexeme) : Prop :=
  match x with
  | LxWord w => is_word w
  | LxString src val => str_body src val
  | LxComment c => c <> [] /\ ~ In c_nl c /\ forallb is_7bit c = true
  | _ => True
  end.

(** How a piece is written. *)
Definition lx_text (x : lexeme) : str :=
  match x with
  | LxOpen => [c_lpar]
  | LxClose => [c_rpar]
  | LxQuote => [c_quote]
  | LxBackquote => [c_bquote]
  | LxComma => [c_comma]
  | LxCommaAt => [c_comma; c_at]
  | LxWord w => w
  | LxString src _ => [c_dquote] ++ src ++ [c_dquote]
  | LxComment c => [c_semi] ++ c ++ [c_nl]
  end.

(** What a piece means. *)
Definition lx_means (x : lexeme) (k : toktype * tokval) : Prop :=
  match x with
  | LxOpen => k = (TkListStart, TvStr [c_lpar])
  | LxClose => k = (TkListEnd, TvStr [c_rpar])
  | LxQuote => k = (TkQuote, TvStr [c_quote])
  | LxBackquote => k = (TkQuasiQuote, TvStr [c_bquote])
  | LxComma => k = (TkUnQuote, TvStr [c_comma])
  | LxCommaAt => k = (TkUnQuoteSplicing, TvStr [c_comma; c_at])
  | LxWord w => word_means w k
  | LxString _ val => k = (TkString, TvStr val)
  | LxComment c => k = (TkComment, TvStr ([c_semi] ++ c ++ [c_nl]))
  end.

(** A source text: pieces, each followed by blanks. *)
Definition source := list (lexeme * str).

Fixpoint src_text (s : source) : str :=
  match s with
  | [] => []
  | (x, b) :: s' => lx_text x ++ b ++ src_text s'
  end.

(** Blanks are required only after a word, and there only if the next piece is
    not a bracket or a comment.  A comma must not be followed by a word that
    begins with an at-sign (it would become comma-at). *)
Definition starts_at (x : lexeme) : bool :=
  match lx_text x with c :: _ => Ascii.eqb c c_at | [] => false end.

Fixpoint src_ok (s : source) : Prop :=
  match s with
  | [] => True
  | (x, b) :: s' =>
    lx_ok x /\ is_blank b /\
    (b = [] ->
     match x, s' with
     | LxWord _, (y, _) :: _ => y = LxOpen \/ y = LxClose \/ (exists c, y = LxComment c)
     | (LxQuote | LxBackquote | LxComma), (y, _) :: _ => starts_at y = false
     | _, _ => True
     end) /\ src_ok s'
  end.

(** A source text after which another piece can follow directly: it is empty, ends
    with a blank, or ends with a piece that needs no blank after it. *)
Fixpoint src_closed (s : source) : Prop :=
  match s with
  | [] => True
  | [(x, b)] => b <> [] \/
    match x with LxOpen | LxClose | LxCommaAt | LxString _ _ | LxComment _ => True | _ => False end
  | _ :: s' => src_closed s'
  end.

(** What the tokens of a source text should be: kind, value and line; the line
    is one plus the newlines written before the token's last character. *)
Definition lx_inner_newlines (x : lexeme) : Z :=
  match x with LxString src _ => newlines src | _ => 0 end.

Fixpoint src_means (line : Z) (s : source) (ks : list (toktype * tokval * Z)) : Prop :=
  match s, ks with
  | [], [] => True
  | (x, b) :: s', (k, l) :: ks' =>
    lx_means x k /\ l = (line + lx_inner_newlines x)%Z /\
    src_means (line + newlines (lx_text x ++ b))%Z s' ks'
  | _, _ => False
  end.

(** No semicolon inside a string literal (see the line number properties). *)
Definition lx_no_semi (x : lexeme) : Prop :=
  match x with LxString src _ => ~ In c_semi src | _ => True end.
Definition src_no_semi (s : source) : Prop := Forall (fun xb => lx_no_semi (fst xb)) s.

(** The observable part of a token. *)
Definition tk_view (t : token) : toktype * tokval * Z := (tk_type t, tk_val t, tk_line t).
Definition tk_kind (t : token) : toktype * tokval := (tk_type t, tk_val t).

(** The words of a text over brackets, blanks and plain characters, in order; every bracket is
    a word of its own.  [cur] is the word being read. *)
Fixpoint words_from (cur : str) (s : str) : list str :=
  match s with
  | [] => match cur with [] => [] | _ => [cur] end
  | c :: s' =>
    let flush := match cur with [] => [] | _ => [cur] end in
    if is_space c then flush ++ words_from [] s'
    else if Ascii.eqb c c_lpar || Ascii.eqb c c_rpar then flush ++ [[c]] ++ words_from [] s'
    else words_from (cur ++ [c]) s'
  end.
Definition words (s : str) : list str := words_from [] s.

Definition simple_text (s : str) : Prop :=
  forallb (fun c => plain_char c || is_space c || Ascii.eqb c c_lpar || Ascii.eqb c c_rpar) s = true.

(** The same tokens some lines further down. *)
Definition shift_line (d : Z) (v : toktype * tokval * Z) : toktype * tokval * Z := (fst v, snd v + d)%Z.

(** The meaning of a bracket or a word. *)
Definition piece_means (w : str) (k : toktype * tokval) : Prop :=
  (w = [c_lpar] /\ k = (TkListStart, TvStr [c_lpar])) \/
  (w = [c_rpar] /\ k = (TkListEnd, TvStr [c_rpar])) \/ word_means w k.

(** The outcome of reading a text, without positions and lines. *)
Definition kinds_of (o : out (list token)) : out (list (toktype * tokval)) :=
  match o with
  | Val ts => Val (map tk_kind ts)
  | Throw e => Throw e | Undef u => Undef u | Unmod w => Unmod w | NoFuel => NoFuel
  end.
(** With lines. *)
Definition views_of (o : out (list token)) : out (list (toktype * tokval * Z)) :=
  match o with
  | Val ts => Val (map tk_view ts)
  | Throw e => Throw e | Undef u => Undef u | Unmod w => Unmod w | NoFuel => NoFuel
  end.

(** A source text in which every word has a meaning; the kinds of its tokens. *)
Fixpoint src_kinds (s : source) (ks : list (toktype * tokval)) : Prop :=
  match s, ks with
  | [], [] => True
  | (x, _) :: s', k :: ks' => lx_means x k /\ src_kinds s' ks'
  | _, _ => False
  end.
