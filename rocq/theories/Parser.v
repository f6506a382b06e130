(** The parser: Parser.cpp 33-165. *)
Require Import String Ascii List ZArith Bool Lia.
From Verif Require Import Base CppString Num Token Tokenizer.
Import ListNotations.

(** Parse results.  [PTok t] is object(LispVariant(token)) (Variant.cpp 87-99), [PSym s]
    is object(LispVariant(_Symbol, s)) without a token (Parser.cpp 94, 109), and
    [PList] is object(IEnumerable).  The C++ code builds vectors of shared_ptr;
    at this stage nothing is shared, so a tree is the same information. *)
Inductive ptree :=
| PTok (t : token)
| PSym (s : str)
| PList (l : list ptree).

(** LispEnvironment::Quote etc., Environment.cpp 87-90. *)
Definition n_quote : str := $"quote".
Definition n_quasiquote : str := $"quasiquote".
Definition n_unquote : str := $"_unquote".
Definition n_unquotesplicing : str := $"_unquotesplicing".

(** Parser.cpp 33-35. *)
Definition msg_balance : str := $"Brackets out of balance".
Definition msg_balance_or_code : str := msg_balance ++ $" or unexpected script code".
Definition msg_unexpected : str := $"Unexpected token".

(** LispException(text, token, moduleName), Exception.cpp 52-59, Exception.h 72. *)
Definition exn_at (msg : str) (t : token) (modname : str) : exn :=
  ELisp msg (ErrInfo (wrap32 (tk_line t)) (wrap32 (tk_start t)) (wrap32 (tk_stop t)) modname $"not available").

(** OnlyCommentTokensFrom, Parser.cpp 154-164, on the remaining tokens. *)
Definition only_comments (ts : list token) : bool :=
  forallb (fun t => match tk_type t with TkComment => true | _ => false end) ts.

(** LispParser::ParseTokens, Parser.cpp 58-152.  [ts] are the tokens from index i on,
    [stack] is listStack (elements in reverse); the variable current is null
    exactly while the stack is empty and otherwise its top.  [last] is
    tokens.back().  Returns parseResult and the tokens after the returned
    index.  The recursion for quote marks uses fewer tokens, the fuel
    [S (length ts)] always suffices (parse_fuel_enough). *)
Fixpoint parse_tokens (fuel : nat) (modname : str) (last : option token) (toplevel : bool)
         (ts : list token) (stack : list (list ptree)) : out (ptree * list token) :=
  match fuel with
  | O => NoFuel
  | S fuel' =>
    match ts with
    | [] =>
      match toplevel, last with
      | true, Some t => Throw (exn_at msg_balance t modname)
      | _, _ =>
        match stack with
        | [] => Undef UBNullDeref                        (* *current with current = null *)
        | cur :: _ => Val (PList (rev cur), [])
        end
      end
    | t :: ts' =>
      match tk_type t with
      | TkListStart => parse_tokens fuel' modname last toplevel ts' ([] :: stack)
      | TkListEnd =>
        match stack with
        | [] => Undef UBEmptyStack
        | [cur] =>
          if toplevel && negb (only_comments ts') then
            Throw (exn_at msg_balance_or_code t modname)
          else Val (PList (rev cur), ts')
        | cur :: up :: stack' =>
          parse_tokens fuel' modname last toplevel ts' ((PList (rev cur) :: up) :: stack')
        end
      | TkQuote | TkQuasiQuote =>
        let name := match tk_type t with TkQuote => n_quote | _ => n_quasiquote end in
        let? r := parse_tokens fuel' modname last false ts' [] in
        let '(q, ts2) := r in
        match stack with
        | [] => parse_tokens fuel' modname last toplevel ts2 []       (* quote object dropped *)
        | cur :: stack' =>
          parse_tokens fuel' modname last toplevel ts2 ((PList [PSym name; q] :: cur) :: stack')
        end
      | TkUnQuote | TkUnQuoteSplicing =>
        let name := match tk_type t with TkUnQuote => n_unquote | _ => n_unquotesplicing end in
        let? r := parse_tokens fuel' modname last false ts' [] in
        let '(q, ts2) := r in
        match stack with
        | [] => Val (PList [PSym name; q], ts2)
        | cur :: stack' =>
          parse_tokens fuel' modname last toplevel ts2 ((PList [PSym name; q] :: cur) :: stack')
        end
      | TkComment => parse_tokens fuel' modname last toplevel ts' stack
      | _ =>
        match stack with
        | [] => if toplevel then Throw (exn_at msg_unexpected t modname)
                else Val (PTok t, ts')
        | cur :: stack' =>
          parse_tokens fuel' modname last toplevel ts' ((PTok t :: cur) :: stack')
        end
      end
    end
  end.

Definition last_token (ts : list token) : option token :=
  match rev ts with [] => None | t :: _ => Some t end.

(** ParseTokens(moduleName, tokens, 0, parseResult, true), Parser.cpp 41-53. *)
Definition parse_toplevel (modname : str) (ts : list token) : out ptree :=
  let? r := parse_tokens (S (length ts)) modname (last_token ts) true ts [] in Val (fst r).

(** LispParser::Parse, Parser.cpp 39-56 (without storing the tokens in the scope). *)
Definition parse (modname : str) (code : str) (offset : Z) : out ptree :=
  let? ts := tokenize code offset in parse_toplevel modname ts.

(** DecorateWithBlock, Lisp.cpp 45-51. *)
Definition decorate (code : str) : str := $"(do " ++ code ++ [c_nl; c_rpar].

(** The parse step of Lisp::Eval, Lisp.cpp 123-125. *)
Definition parse_script (modname : str) (code : str) : out ptree := parse modname (decorate code) 4.
