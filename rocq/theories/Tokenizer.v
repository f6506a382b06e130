(** The tokenizer: Tokenizer.cpp 31-218. *)
Require Import String Ascii List ZArith Bool Lia.
From Verif Require Import Base CppString Num Token.
Import ListNotations.

(** Local variables of LispTokenizer::Tokenize, Tokenizer.cpp 33-39, plus the loop
    index.  [ts_skip] counts characters the loop index has already jumped over
    (i++ and i = newIndex inside the body); it lets the model recurse on the
    text one character at a time. *)
Record tstate := TState {
  ts_toks : list token;      (* in reverse order *)
  ts_cur : str;              (* currentToken *)
  ts_start : Z;              (* currentTokenStartPos *)
  ts_line : Z;               (* lineCount *)
  ts_instr : bool;           (* isInString *)
  ts_insym : bool;           (* isInSymbol *)
  ts_bs : bool;              (* wasLastBackslash *)
  ts_pos : Z;                (* i *)
  ts_skip : nat }.

Definition tinit : tstate := TState [] [] 0 1 false false false 0 0.

Definition set_bs (b : bool) (s : tstate) : tstate :=
  TState (ts_toks s) (ts_cur s) (ts_start s) (ts_line s) (ts_instr s) (ts_insym s) b (ts_pos s) (ts_skip s).
Definition inc_line (s : tstate) : tstate :=
  TState (ts_toks s) (ts_cur s) (ts_start s) (ts_line s + 1)%Z (ts_instr s) (ts_insym s) (ts_bs s) (ts_pos s) (ts_skip s).
Definition app_cur (c : ascii) (s : tstate) : tstate :=
  TState (ts_toks s) (ts_cur s ++ [c]) (ts_start s) (ts_line s) (ts_instr s) (ts_insym s) (ts_bs s) (ts_pos s) (ts_skip s).
Definition set_skip (n : nat) (s : tstate) : tstate :=
  TState (ts_toks s) (ts_cur s) (ts_start s) (ts_line s) (ts_instr s) (ts_insym s) (ts_bs s) (ts_pos s) n.
Definition set_insym (b : bool) (s : tstate) : tstate :=
  TState (ts_toks s) (ts_cur s) (ts_start s) (ts_line s) (ts_instr s) b (ts_bs s) (ts_pos s) (ts_skip s).
Definition begin_string (s : tstate) : tstate :=
  TState (ts_toks s) [] (ts_start s) (ts_line s) true (ts_insym s) (ts_bs s) (ts_pos s) (ts_skip s).
Definition next_pos (s : tstate) : tstate :=
  TState (ts_toks s) (ts_cur s) (ts_start s) (ts_line s) (ts_instr s) (ts_insym s) (ts_bs s) (ts_pos s + 1)%Z (ts_skip s).

(** The lambda addToken, Tokenizer.cpp 42-49. *)
Definition add_token (offset : Z) (text : str) (pos : Z) (s : tstate) : out tstate :=
  let? t := mk_token text (ts_start s - offset) (pos - offset) (ts_line s) in
  Val (TState (t :: ts_toks s) [] (pos + 1)%Z (ts_line s) false false (ts_bs s) (ts_pos s) (ts_skip s)).

(** ProcessCharAfterBackslash, Tokenizer.cpp 182-196. *)
Definition process_escape (c : ascii) : out ascii :=
  if Ascii.eqb c "n" then Val c_nl
  else if Ascii.eqb c "r" then Val c_cr
  else if Ascii.eqb c "t" then Val c_tab
  else if Ascii.eqb c c_bslash then Val c_bslash
  else let? m := Format $"Invalid character after backslash {0}" [[c]] in Throw (ELispBase m).

(** GetRestOfLine, Tokenizer.cpp 207-218, with the text after the semicolon as
    argument: the comment text and how many characters of it are consumed.
    pos = npos also satisfies pos > 0; then i + npos wraps to the index of the
    semicolon and Substring(0, npos + 1) is empty.  pos = 0 takes the last
    two lines: the whole rest of the script becomes the comment. *)
Definition get_rest_of_line (rest : str) : str * nat :=
  match find [c_nl] rest with
  | None => ([], 0%nat)
  | Some O => (rest, length rest)
  | Some p => (firstn (p + 1) rest, (p + 1)%nat)
  end.

(** ProcessComment, Tokenizer.cpp 198-205. *)
Definition process_comment (offset : Z) (rest : str) (s : tstate) : out tstate :=
  let '(c, n) := get_rest_of_line rest in
  let? s1 := add_token offset (c_semi :: c) (ts_pos s) s in
  Val (set_skip n s1).

Definition is_paren (c : ascii) : bool := Ascii.eqb c c_lpar || Ascii.eqb c c_rpar.
Definition is_quotemark (c : ascii) : bool :=
  Ascii.eqb c c_quote || Ascii.eqb c c_bquote || Ascii.eqb c c_comma.

(** One round of the for loop, Tokenizer.cpp 53-173; [rest] is the text after [ch].
    Char_IsWhiteSpace (Token.h 62-65) is undefined for bytes above 127. *)
Definition tok_step (offset : Z) (s : tstate) (ch : ascii) (rest : str) : out tstate :=
  if negb (is_7bit ch) then Undef UBCtype
  else if is_space ch then
    let? s1 :=
      (if ts_instr s then Val (app_cur ch s)
       else if ts_insym s then add_token offset (ts_cur s) (ts_pos s) s
       else Val s) in
    let s2 := set_bs false s1 in
    Val (if Ascii.eqb ch c_nl then inc_line s2 else s2)
  else if Ascii.eqb ch c_bslash then
    if ts_bs s then Val (set_bs false (app_cur ch s)) else Val (set_bs true s)
  else if is_paren ch then
    let? s1 :=
      (if ts_instr s then Val (app_cur ch s)
       else if ts_insym s then
         let? s1 := add_token offset (ts_cur s) (ts_pos s) s in
         add_token offset [ch] (ts_pos s) s1
       else add_token offset [ch] (ts_pos s) s) in
    Val (set_bs false s1)
  else if Ascii.eqb ch c_semi then
    let? s1 :=
      (if ts_instr s then Val (app_cur ch s)
       else if ts_insym s then
         let? s1 := add_token offset (ts_cur s) (ts_pos s) s in
         process_comment offset rest s1
       else process_comment offset rest s) in
    Val (inc_line (set_bs false s1))
  else if is_quotemark ch then
    let? s1 :=
      (if ts_instr s then Val (app_cur ch s)
       else if prefixb [c_at] rest then
         let? s1 := add_token offset [ch; c_at] (ts_pos s + 1) s in Val (set_skip 1 s1)
       else add_token offset [ch] (ts_pos s) s) in
    Val (set_bs false s1)
  else if Ascii.eqb ch c_dquote then
    let? s1 :=
      (if ts_bs s then Val (app_cur ch s)
       else if ts_instr s then
         add_token offset ([c_dquote] ++ ts_cur s ++ [c_dquote]) (ts_pos s) s
       else Val (begin_string s)) in
    Val (set_bs false s1)
  else
    let s1 := if negb (ts_insym s) && negb (ts_instr s) then set_insym true s else s in
    let? ch' := (if ts_bs s then process_escape ch else Val ch) in
    Val (set_bs false (app_cur ch' s1)).

(** The for loop, Tokenizer.cpp 51-174. *)
Fixpoint tok_loop (offset : Z) (code : str) (s : tstate) : out tstate :=
  match code with
  | [] => Val s
  | ch :: rest =>
    match ts_skip s with
    | S n => tok_loop offset rest (next_pos (set_skip n s))
    | O => let? s1 := tok_step offset s ch rest in tok_loop offset rest (next_pos s1)
    end
  end.

(** The end of Tokenize, Tokenizer.cpp 175-179. *)
Definition tok_finish (offset : Z) (s : tstate) : out (list token) :=
  match ts_cur s with
  | [] => Val (rev (ts_toks s))
  | cur => let? s1 := add_token offset cur (-1) s in Val (rev (ts_toks s1))
  end.

(** LispTokenizer::Tokenize, Tokenizer.cpp 31-180. *)
Definition tokenize (code : str) (offset : Z) : out (list token) :=
  let? s := tok_loop offset code tinit in tok_finish offset s.
