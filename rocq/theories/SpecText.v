(** Specification of the text functions, without reference to the model of them. *)
Require Import String Ascii List ZArith Bool Lia.
From Verif Require Import Base SpecLex.
Import ListNotations.

(** [needle] stands at position [p] of [text]. *)
Definition occurs_at (needle text : str) (p : nat) : Prop :=
  exists a b, text = a ++ needle ++ b /\ length a = p.
Definition occurs (needle text : str) : Prop := exists p, occurs_at needle text p.
Definition first_at (needle text : str) (p : nat) : Prop :=
  occurs_at needle text p /\ forall q, occurs_at needle text q -> (p <= q)%nat.

(** [text] with the occurrences of [needle] replaced from left to right, without looking
    at inserted text again. *)
Inductive replaced (needle repl : str) : str -> str -> Prop :=
| rp_none : forall text, ~ occurs needle text -> replaced needle repl text text
| rp_first : forall a b b', first_at needle (a ++ needle ++ b) (length a) -> replaced needle repl b b' ->
    replaced needle repl (a ++ needle ++ b) (a ++ repl ++ b').

(** Whitespace at the ends. *)
Definition blank_text (t : str) : Prop := forallb is_space t = true.
Definition tight (t : str) : Prop :=
  match t with [] => True | c :: _ => is_space c = false /\ is_space (last t c) = false end.
Definition trimmed (text r : str) : Prop :=
  exists a b, text = a ++ r ++ b /\ blank_text a /\ blank_text b /\ tight r.

(** Lines. *)
Fixpoint join_lines (ls : list str) : str :=
  match ls with
  | [] => []
  | [l] => l
  | l :: ls' => l ++ c_nl :: join_lines ls'
  end.
Definition is_line (l : str) : Prop := ~ In c_nl l.

(** Templates: literal text without an opening brace, a placeholder {k}, or a placeholder with
    a width {k,w}. *)
Inductive piece :=
| PLit (t : str)
| PHole (k : ascii)
| PWide (k : ascii) (wtext : str) (w : Z).
Definition c_open : ascii := "{"%char.
Definition c_close : ascii := "}"%char.
Definition piece_text (p : piece) : str :=
  match p with
  | PLit t => t
  | PHole k => [c_open; k; c_close]
  | PWide k wt _ => [c_open; k; c_comma] ++ wt ++ [c_close]
  end.
Definition template (ps : list piece) : str := flat_map piece_text ps.
(** Padded with blanks to the width: on the left for a positive width, otherwise on the right. *)
Definition padded (w : Z) (t : str) : str :=
  let fill := repeat c_space (Z.to_nat (Z.abs w - Z.of_nat (length t))) in
  if (0 <? w)%Z then fill ++ t else t ++ fill.
(** The first placeholder {k} and the first placeholder {k,w} get the text. *)
Fixpoint fill_hole (k : ascii) (t : str) (ps : list piece) : list piece :=
  match ps with
  | [] => []
  | PHole j :: ps' => if Ascii.eqb j k then PLit t :: ps' else PHole j :: fill_hole k t ps'
  | p :: ps' => p :: fill_hole k t ps'
  end.
Fixpoint fill_wide (k : ascii) (t : str) (ps : list piece) : list piece :=
  match ps with
  | [] => []
  | PWide j wt w :: ps' => if Ascii.eqb j k then PLit (padded w t) :: ps' else PWide j wt w :: fill_wide k t ps'
  | p :: ps' => p :: fill_wide k t ps'
  end.
Fixpoint fill_all (ks : list ascii) (args : list str) (ps : list piece) : list piece :=
  match ks, args with
  | k :: ks', t :: args' => fill_all ks' args' (fill_wide k t (fill_hole k t ps))
  | _, _ => ps
  end.
Definition has_hole (k : ascii) (ps : list piece) : Prop :=
  In (PHole k) ps \/ exists wt w, In (PWide k wt w) ps.

(** Pieces a template can be built from. *)
Definition piece_ok (p : piece) : Prop :=
  match p with
  | PLit t => ~ In c_open t
  | PHole k => is_digit k = true
  | PWide k wt w => is_digit k = true /\ int_text wt w /\ (-2147483648 < w <= 2147483647)%Z
  end.
(** The placeholder digits Format knows, in the order of the arguments. *)
Definition digits5 : list ascii := $"01234".

(** The position of the first occurrence at or after [from], -1 if there is none. *)
Definition found_at (n t : str) (from : nat) (z : Z) : Prop :=
  (exists p, z = Z.of_nat p /\ (from <= p)%nat /\ occurs_at n t p /\ forall q, (from <= q)%nat -> occurs_at n t q -> (p <= q)%nat) \/
  (z = (-1)%Z /\ forall q, (from <= q)%nat -> ~ occurs_at n t q).
