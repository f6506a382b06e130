(** Specification vocabulary for parsing: expressions, the token sequences that write them, and
    bracket balance.  Nothing here refers to the parser. *)
Require Import String Ascii List ZArith Bool Lia.
From Verif Require Import Base Num Token SpecLex.
Import ListNotations.

Inductive mark := MQuote | MQuasi | MUnquote | MSplice.

(** Expressions as written in a script. *)
Inductive expr :=
| EAtom (k : toktype * tokval)
| EList (l : list expr)
| EMark (m : mark) (e : expr).

(** Data: atoms and lists. *)
Inductive datum :=
| DAtom (k : toktype * tokval)
| DList (l : list datum).

Definition mark_name (m : mark) : str :=
  match m with
  | MQuote => $"quote" | MQuasi => $"quasiquote" | MUnquote => $"_unquote" | MSplice => $"_unquotesplicing"
  end.
Definition mark_kind (m : mark) : toktype * tokval :=
  match m with
  | MQuote => (TkQuote, TvStr $"'") | MQuasi => (TkQuasiQuote, TvStr $"`")
  | MUnquote => (TkUnQuote, TvStr $",") | MSplice => (TkUnQuoteSplicing, TvStr $",@")
  end.
Definition open_kind : toktype * tokval := (TkListStart, TvStr $"(").
Definition close_kind : toktype * tokval := (TkListEnd, TvStr $")").

(** The datum an expression stands for: a mark abbreviates a two-element list. *)
Fixpoint datum_of (e : expr) : datum :=
  match e with
  | EAtom k => DAtom k
  | EList l => DList (map datum_of l)
  | EMark m e => DList [DAtom (TkSymbol, TvStr (mark_name m)); datum_of e]
  end.

Definition atom_type (t : toktype) : bool :=
  match t with TkSymbol | TkString | TkInt | TkDouble | TkTrue | TkFalse | TkNil => true | _ => false end.

(** Quote and backquote do not nest directly. *)
Definition quote_headed (e : expr) : bool :=
  match e with EMark MQuote _ | EMark MQuasi _ => true | _ => false end.

(** [writes e ks]: the token sequence [ks] writes the expression [e]; comments may stand
    anywhere inside. *)
Inductive writes : expr -> list (toktype * tokval) -> Prop :=
| w_atom : forall k, atom_type (fst k) = true -> writes (EAtom k) [k]
| w_list : forall l ks, writes_all l ks -> writes (EList l) (open_kind :: ks ++ [close_kind])
| w_mark : forall m e ks, quote_headed e = false -> writes e ks -> writes (EMark m e) (mark_kind m :: ks)
| w_mark_comment : forall m e c ks, writes (EMark m e) (mark_kind m :: ks) ->
    writes (EMark m e) (mark_kind m :: (TkComment, c) :: ks)
with writes_all : list expr -> list (toktype * tokval) -> Prop :=
| ws_nil : writes_all [] []
| ws_cons : forall e l k1 k2, writes e k1 -> writes_all l k2 -> writes_all (e :: l) (k1 ++ k2)
| ws_comment : forall l c ks, writes_all l ks -> writes_all l ((TkComment, c) :: ks).

Definition comment_kind (k : toktype * tokval) : bool := match fst k with TkComment => true | _ => false end.

(** Writing an expression tree: one blank after each piece. *)
Definition blank1 : str := [c_space].
Inductive tree := TWord (w : str) | TText (val : str) | TNode (l : list tree).

Fixpoint tree_source (t : tree) : source :=
  match t with
  | TWord w => [(LxWord w, blank1)]
  | TText v => [(LxString (escape v) v, blank1)]
  | TNode l => (LxOpen, blank1) :: flat_map tree_source l ++ [(LxClose, blank1)]
  end.

(** The tree denotes a datum: words by their meaning, texts as strings. *)
Inductive tree_means : tree -> datum -> Prop :=
| tm_word : forall w k, is_word w -> word_means w k -> tree_means (TWord w) (DAtom k)
| tm_text : forall v, forallb is_7bit v = true -> tree_means (TText v) (DAtom (TkString, TvStr v))
| tm_node : forall l ds, Forall2 tree_means l ds -> tree_means (TNode l) (DList ds).

(** ** Bracket balance of token sequences *)
Definition count_type (f : toktype -> bool) (ts : list token) : nat :=
  length (filter (fun t => f (tk_type t)) ts).
Definition opens (ts : list token) : nat := count_type (fun t => match t with TkListStart => true | _ => false end) ts.
Definition closes (ts : list token) : nat := count_type (fun t => match t with TkListEnd => true | _ => false end) ts.

(** [ts] is one complete bracketed list: as many closing as opening brackets, but fewer in
    every shorter beginning (except the empty one). *)
Definition complete (ts : list token) : Prop :=
  ts <> [] /\ opens ts = closes ts /\
  forall a b, ts = a ++ b -> a <> [] -> b <> [] -> (closes a < opens a)%nat.

Definition no_marks (ts : list token) : Prop :=
  Forall (fun t => match tk_type t with TkQuote | TkQuasiQuote | TkUnQuote | TkUnQuoteSplicing => False | _ => True end) ts.
Definition all_comments (ts : list token) : Prop := Forall (fun t => tk_type t = TkComment) ts.

(** ** Errors *)
(** A number stored in a 32-bit int. *)
Definition stored_int (z : Z) : Z := ((z + 2147483648) mod 4294967296 - 2147483648)%Z.
(** An error with the message, the module and the line and the place of the token in the source. *)
Definition points_at (t : token) (msg modname : str) (e : exn) : Prop :=
  exists i, e = ELisp msg i /\ ei_line i = stored_int (tk_line t) /\ ei_start i = stored_int (tk_start t) /\ ei_stop i = stored_int (tk_stop t) /\ ei_module i = modname.
