(** Tokens: Token.h and Token.cpp. *)
Require Import String Ascii List ZArith Bool Lia.
From Verif Require Import Base CppString Num.
Import ListNotations.

(** LispTokenType, Token.h 40-56. *)
Inductive toktype :=
| TkListStart | TkListEnd | TkSymbol | TkString | TkInt | TkDouble
| TkQuote | TkQuasiQuote | TkUnQuote | TkUnQuoteSplicing
| TkTrue | TkFalse | TkComment | TkNil.

(** LispToken::Value, Token.h 101: the kinds of objects the constructor stores. *)
Inductive tokval :=
| TvStr (s : str) | TvInt (z : Z) | TvDouble (f : f64) | TvBool (b : bool).

(** LispToken, Token.h 71-155.  Positions are size_t in the code; here they are
    integers without the wrap-around modulo 2^64 (they are only compared for
    equality and shown after a cast to int). *)
Record token := Token {
  tk_type : toktype; tk_val : tokval; tk_start : Z; tk_stop : Z; tk_line : Z }.

(** Int32_TryParse, Token.cpp 41-57: only invalid_argument is caught.
    [None]: returned false. *)
Definition Int32_TryParse (txt : str) : out (option Z) :=
  match stoi_pos txt with
  | Val (v, p) => if (p <? length txt)%nat then Val None else Val (Some v)
  | Throw EInvalidArg => Val None
  | Throw e => Throw e
  | Undef u => Undef u | Unmod w => Unmod w | NoFuel => NoFuel
  end.

(** Double_TryParse, Token.cpp 59-75. *)
Definition Double_TryParse (txt : str) : out (option f64) :=
  match stod_pos txt with
  | Val (v, p) => if (p <? length txt)%nat then Val None else Val (Some v)
  | Throw EInvalidArg => Val None
  | Throw e => Throw e
  | Undef u => Undef u | Unmod w => Unmod w | NoFuel => NoFuel
  end.

(** The type and value part of LispToken::LispToken, Token.cpp 77-151. *)
Definition classify (text : str) : out (toktype * tokval) :=
  if prefixb [c_dquote] text then
    Val (TkString, TvStr (firstn (length text - 2) (skipn 1 text)))
  else if str_eqb text [c_quote] then Val (TkQuote, TvStr text)
  else if str_eqb text [c_bquote] then Val (TkQuasiQuote, TvStr text)
  else if str_eqb text [c_comma] then Val (TkUnQuote, TvStr text)
  else if str_eqb text [c_comma; c_at] then Val (TkUnQuoteSplicing, TvStr text)
  else if str_eqb text [c_lpar] then Val (TkListStart, TvStr text)
  else if str_eqb text [c_rpar] then Val (TkListEnd, TvStr text)
  else
    let? i := Int32_TryParse text in
    match i with
    | Some z => Val (TkInt, TvInt z)
    | None =>
      let? d := Double_TryParse text in
      match d with
      | Some f => Val (TkDouble, TvDouble f)
      | None =>
        if str_eqb text $"true" || str_eqb text $"#t" then Val (TkTrue, TvBool true)
        else if str_eqb text $"false" || str_eqb text $"#f" then Val (TkFalse, TvBool false)
        else
          let? up := ToUpper text in
          if str_eqb up $"NIL" then Val (TkNil, TvInt 0)
          else if prefixb [c_semi] text then Val (TkComment, TvStr text)
          else Val (TkSymbol, TvStr text)
      end
    end.

(** LispToken::LispToken, Token.cpp 77-151. *)
Definition mk_token (text : str) (start stop line : Z) : out token :=
  let? tv := classify text in
  Val (Token (fst tv) (snd tv) start stop line).

(** LispToken::ToString, Token.cpp 163-170. *)
Definition token_to_string (t : token) : str :=
  match tk_type t with
  | TkNil => $"NIL"
  | _ => match tk_val t with
         | TvStr s => s
         | TvInt z => z_to_string z
         | TvDouble f => f_to_string f
         | TvBool b => if b then $"true" else $"false"
         end
  end.
