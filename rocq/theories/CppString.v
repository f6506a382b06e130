(** The string class of the C++ port: csstring.h and csstring.cpp. *)
Require Import String Ascii List ZArith Bool Lia.
Require Import ZifyBool ZifyNat ZifyN.
From Verif Require Import Base.
Import ListNotations.

(** [prefixb p s]: [s] begins with [p].
    csstring.h 135-138 StartsWith: compare(0, len, txt) == 0. *)
Fixpoint prefixb (p s : str) : bool :=
  match p, s with
  | [], _ => true
  | x :: p', y :: s' => Ascii.eqb x y && prefixb p' s'
  | _ :: _, [] => false
  end.

(** std::string::find(txt) from the beginning: least position at which [needle]
    occurs, None for npos.  csstring.h 151-154 IndexOf(txt, culture). *)
Fixpoint find (needle s : str) : option nat :=
  if prefixb needle s then Some 0%nat
  else match s with
       | [] => None
       | _ :: s' => option_map S (find needle s')
       end.

(** std::string::find(txt, offset): csstring.h 156-159 IndexOf(txt, offset).
    npos if offset is past the end. *)
Definition find_from (needle s : str) (off : nat) : option nat :=
  if (length s <? off)%nat then None
  else option_map (fun p => (off + p)%nat) (find needle (skipn off s)).

(** std::string::substr(offs, len): throws out_of_range if offs > size.
    csstring.h 140-143 Substring. *)
Definition substr (s : str) (offs len : nat) : out str :=
  if (length s <? offs)%nat then Throw EOutOfRange
  else Val (firstn len (skipn offs s)).

(** Substring(offs) with length = npos, csstring.h 140-143. *)
Definition substr_from (s : str) (offs : nat) : out str :=
  if (length s <? offs)%nat then Throw EOutOfRange
  else Val (skipn offs s).

(** std::string::replace(pos, len, r) for pos <= size, called in csstring.h 107 and csstring.cpp 124-155. *)
Definition splice (s : str) (pos len : nat) (r : str) : str :=
  firstn pos s ++ r ++ skipn (pos + len) s.

(** c_str(), as in csstring.h 148, truncates at the first NUL byte when converted back to std::string. *)
Fixpoint cstr (s : str) : str :=
  match s with
  | [] => []
  | c :: s' => if Ascii.eqb c c_nul then [] else c :: cstr s'
  end.

(** do_replace, csstring.h 101-111.  [pos] is the loop variable; every round either
    stops (find = npos) or moves [pos] past the inserted text.  The text after
    [pos] shrinks by at least the needle's length in each round, so [length s]
    rounds suffice; running out returns the string unchanged and is shown
    unreachable in the proofs (do_replace_fuel_enough). *)
Fixpoint do_replace_loop (fuel : nat) (s search repl : str) (pos : nat) : str :=
  match fuel with
  | O => s
  | S fuel' =>
    match find_from search s pos with
    | None => s
    | Some p => do_replace_loop fuel' (splice s p (length search) repl) search repl (p + length repl)
    end
  end.

Definition do_replace (s search repl : str) : str :=
  match search with
  | [] => s
  | _ => do_replace_loop (S (length s)) s search repl 0
  end.

(** string::Replace, csstring.h 145-149: both arguments pass through c_str(). *)
Definition Replace (s search repl : str) : str := do_replace s (cstr search) (cstr repl).

(** std::find_if_not(isspace) from the left, csstring.cpp 87: drop the leading whitespace. *)
Fixpoint drop_space (s : str) : str :=
  match s with
  | [] => []
  | c :: s' => if is_space c then drop_space s' else s
  end.

(** string::Trim, csstring.cpp 83-90.  std::isspace gets a plain char; with a
    byte above 127 examined the call is undefined.  The left scan examines
    bytes up to and including the first non-space, the right scan likewise;
    a byte above 127 is never skipped on either side, so UB occurs exactly if
    a scan reaches one: that is when the first or last non-space byte is one. *)
Definition Trim (s : str) : out str :=
  let l := drop_space s in
  let r := drop_space (rev l) in
  match l, r with
  | c :: _, d :: _ => if is_7bit c && is_7bit d then Val (rev r) else Undef UBCtype
  | _, _ => Val (rev r)
  end.

(** string::ToUpper / ToLower, csstring.cpp 69-81: std::toupper on each char;
    undefined for bytes above 127. *)
Definition ToUpper (s : str) : out str :=
  if forallb is_7bit s then Val (map to_upper_c s) else Undef UBCtype.
Definition ToLower (s : str) : out str :=
  if forallb is_7bit s then Val (map to_lower_c s) else Undef UBCtype.

(** string::EndsWith, csstring.cpp 60-67. *)
Definition EndsWith (s t : str) : bool :=
  if (length s <? length t)%nat then false else prefixb (rev t) (rev s).

(** string::Split, csstring.cpp 92-111.  [prev] is the start of the current word,
    [pos] the search position, both indices into the whole string; after a hit
    both become hit+1 (whatever the length of the separator).  substr of the
    last word cannot throw because prev <= size for a non-empty separator.
    For an empty separator find returns pos until pos > size, then substr
    throws; modelled by [substr].  Fuel: at most size+1 hits. *)
Fixpoint split_loop (fuel : nat) (s sep : str) (prev pos : nat) : out (list str) :=
  match fuel with
  | O => NoFuel
  | S fuel' =>
    match find_from sep s pos with
    | Some p =>
      let? w := substr s prev (p - prev) in
      let? ws := split_loop fuel' s sep (S p) (S p) in
      Val (w :: ws)
    | None =>
      let? w := substr_from s prev in
      Val [w]
    end
  end.

Definition Split (s sep : str) : out (list str) :=
  split_loop (S (S (length s))) s sep 0 0.

(** std::stoi(txt) with default base 10: skips leading whitespace, optional
    sign, at least one digit, stops at the first other byte.
    [stoi_pos] also returns the number of bytes consumed (errPos).  Used by
    csstring.cpp 145, Token.cpp 46 and Environment.cpp. *)
Definition digit_val (c : ascii) : Z := (Z.of_nat (nat_of_ascii c) - 48)%Z.

Fixpoint take_digits (s : str) (acc : Z) (n : nat) : Z * nat :=
  match s with
  | c :: s' => if is_digit c then take_digits s' (acc * 10 + digit_val c)%Z (S n) else (acc, n)
  | [] => (acc, n)
  end.

Definition skip_space_count (s : str) : nat := (length s - length (drop_space s))%nat.

Definition c_minus : ascii := ascii_of_nat 45.
Definition c_plus : ascii := ascii_of_nat 43.

(** std::stoi, called in Token.cpp 46, Environment.cpp 691 and csstring.cpp 145: sign (-1 or 1) and number of sign bytes. *)
Definition take_sign (s : str) : Z * nat :=
  match s with
  | c :: _ => if Ascii.eqb c c_minus then ((-1)%Z, 1%nat)
              else if Ascii.eqb c c_plus then (1%Z, 1%nat) else (1%Z, 0%nat)
  | [] => (1%Z, 0%nat)
  end.

Definition stoi_pos (s : str) : out (Z * nat) :=
  let ws := skip_space_count s in
  let s1 := skipn ws s in
  let '(sg, sn) := take_sign s1 in
  let s2 := skipn sn s1 in
  let '(v, dn) := take_digits s2 0%Z 0%nat in
  match dn with
  | O => Throw EInvalidArg
  | _ => let r := (sg * v)%Z in
         if in_int r then Val (r, (ws + sn + dn)%nat) else Throw EOutOfRange
  end.

Definition stoi (s : str) : out Z := let? r := stoi_pos s in Val (fst r).

(** atoi, called in Variant.cpp 179: like strtol without error report; 0 if there are no digits; undefined
    when the value is not representable. *)
Definition atoi (s : str) : out Z :=
  let s1 := drop_space s in
  let '(sg, sn) := take_sign s1 in
  let '(v, dn) := take_digits (skipn sn s1) 0%Z 0%nat in
  match dn with
  | O => Val 0%Z
  | _ => let r := (sg * v)%Z in if in_int r then Val r else Undef UBOverflow
  end.

(** string::ReplaceIn, csstring.cpp 118-132: replaces the first occurrence only. *)
Definition ReplaceIn (temp findText arg : str) : str * bool :=
  match find findText temp with
  | Some pos => (splice temp pos (length findText) arg, true)
  | None => (temp, false)
  end.

Definition blanks (n : Z) : str := repeat c_space (Z.to_nat n).

(** string::ReplaceInWithFill, csstring.cpp 134-161.  [findText] is "{k,". *)
Definition ReplaceInWithFill (temp findText arg : str) : out (str * bool) :=
  match find findText temp with
  | Some pos =>
    match find_from $"}" temp (S pos) with
    | Some pos2 =>
      let? len := substr temp (pos + 3) (pos2 - pos - length findText) in
      let? l := stoi len in
      let n := Z.of_nat (length arg) in
      if (0 <? l)%Z then
        Val (splice temp pos (pos2 - pos + 1) (blanks (l - n) ++ arg), true)
      else if (l =? int_min)%Z then Undef UBOverflow   (* abs(INT_MIN) *)
      else
        Val (splice temp pos (pos2 - pos + 1) (arg ++ blanks (Z.abs l - n)), true)
    | None => Val (temp, false)
    end
  | None => Val (temp, false)
  end.

Definition NULL_STRING : str := $"##<NULL>##".

(** One of the five rounds of string::Format, csstring.cpp 168-217: [k] is the digit. *)
Definition format_round (err : str) (k : ascii) (arg : str) (temp : str) : out str :=
  let '(t1, f1) := ReplaceIn temp ($"{" ++ [k] ++ $"}") arg in
  if f1 && str_eqb arg NULL_STRING then Throw (ELispBase err)
  else
    let? r := ReplaceInWithFill t1 ($"{" ++ [k] ++ $",") arg in
    let '(t2, f2) := r in
    if f2 && str_eqb arg NULL_STRING then Throw (ELispBase err)
    else Val t2.

(** string::Format, csstring.cpp 163-219. *)
Definition Format5 (txt a1 a2 a3 a4 a5 : str) : out str :=
  let err := $"Not enough items for format string: " ++ txt in
  let? t := format_round err "0" a1 txt in
  let? t := format_round err "1" a2 t in
  let? t := format_round err "2" a3 t in
  let? t := format_round err "3" a4 t in
  format_round err "4" a5 t.

(** Format with fewer arguments, csstring.h 190: the rest take the default NULL_STRING. *)
Definition Format (txt : str) (args : list str) : out str :=
  let a n := nth n args NULL_STRING in
  Format5 txt (a 0%nat) (a 1%nat) (a 2%nat) (a 3%nat) (a 4%nat).

(** string::CompareOrdinal, csstring.cpp 221-224: strcmp of the C strings.
    Only the sign is used by the callers. *)
Fixpoint str_cmp (a b : str) : comparison :=
  match a, b with
  | [], [] => Eq
  | [], _ :: _ => Lt
  | _ :: _, [] => Gt
  | x :: a', y :: b' =>
    match Nat.compare (nat_of_ascii x) (nat_of_ascii y) with
    | Eq => str_cmp a' b'
    | c => c
    end
  end.
Definition CompareOrdinal (a b : str) : comparison := str_cmp (cstr a) (cstr b).

(** std::to_string(int), called in Variant.cpp 263 and csobject.cpp 327: decimal text. *)
Definition digit_char (d : Z) : ascii := ascii_of_nat (Z.to_nat (48 + d)%Z).
Fixpoint pos_digits (fuel : nat) (z : Z) (acc : str) : str :=
  match fuel with
  | O => acc
  | S fuel' =>
    let acc' := digit_char (z mod 10)%Z :: acc in
    if (z <? 10)%Z then acc' else pos_digits fuel' (z / 10)%Z acc'
  end.
(** The same; csobject.cpp 327.  Number of rounds: one more than the binary length suffices. *)
Definition nonneg_to_string (z : Z) : str := pos_digits (S (Z.to_nat (Z.log2 z))) z [].
Definition z_to_string (z : Z) : str :=
  if (z <? 0)%Z then c_minus :: nonneg_to_string (- z) else nonneg_to_string z.
