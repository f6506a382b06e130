(** Doubles (csobject.h 106-125): IEEE binary64 via the standard library's SpecFloat (no axioms),
    std::stod, std::to_string(double) ("%f") and the libm functions that are exact. *)
Require Import String Ascii List ZArith Bool Lia.
Require Import Coq.Floats.SpecFloat.
From Verif Require Import Base CppString.
Import ListNotations.
Open Scope Z_scope.

Definition f64 := spec_float.
Definition prec : Z := 53.
Definition emax : Z := 1024.

(** + - * / of C++ double, used in Variant.cpp 367-440, 445-474, 509 (round to nearest even, no excess precision). *)
Definition fadd (a b : f64) : f64 := SFadd prec emax a b.
Definition fsub (a b : f64) : f64 := SFsub prec emax a b.
Definition fmul (a b : f64) : f64 := SFmul prec emax a b.
Definition fdiv (a b : f64) : f64 := SFdiv prec emax a b.
Definition fltb (a b : f64) : bool := SFltb a b.
Definition fleb (a b : f64) : bool := SFleb a b.
Definition fabs (a : f64) : f64 := SFabs a.
Definition fneg (a : f64) : f64 := SFopp a.
Definition fsqrt (a : f64) : f64 := SFsqrt prec emax a.

(** (double) of an int, Variant.cpp 184-203: exact, and the correctly rounded [m * 2^e]. *)
Definition f_of_z (z : Z) : f64 := binary_normalize prec emax z 0 false.
Definition f_of_z2 (m e : Z) : f64 := binary_normalize prec emax m e false.

(** For std::stod, Token.cpp 64: correctly rounded quotient of positive integers [n/d]. *)
Definition f_of_frac (sgn : bool) (n d : positive) : f64 :=
  let '(q, e', loc) := SFdiv_core_binary prec emax (Zpos n) 0 (Zpos d) 0 in
  binary_round_aux prec emax sgn q e' loc.

(** (int) of a double, Variant.cpp 165-182: truncation towards zero as an integer; None for inf and nan. *)
Definition f_trunc_z (a : f64) : option Z :=
  match a with
  | S754_zero _ => Some 0
  | S754_finite s m e =>
    let v := if 0 <=? e then Zpos m * 2 ^ e else Zpos m / 2 ^ (- e) in
    Some (if s then - v else v)
  | _ => None
  end.

(** (int)d: undefined unless the truncated value fits (Variant.cpp 163-182, 653-670). *)
Definition f_to_int (a : f64) : out Z :=
  match f_trunc_z a with
  | Some z => if in_int z then Val z else Undef UBOverflow
  | None => Undef UBOverflow
  end.

(** C fmod, called in Variant.cpp 434: exact remainder with the sign of the dividend. *)
Definition ffmod (a b : f64) : f64 :=
  match a, b with
  | S754_nan, _ | _, S754_nan | S754_infinity _, _ | _, S754_zero _ => S754_nan
  | S754_zero s, _ => S754_zero s
  | _, S754_infinity _ => a
  | S754_finite s1 m1 e1, S754_finite _ m2 e2 =>
    let e := Z.min e1 e2 in
    let r := (Zpos m1 * 2 ^ (e1 - e)) mod (Zpos m2 * 2 ^ (e2 - e)) in
    if r =? 0 then S754_zero s1
    else let v := binary_normalize prec emax r e false in
         if s1 then SFopp v else v
  end.

(** C floor, ceil, trunc, round, called in Environment.cpp 2254-2277 (half away from zero): exact integers. *)
Definition f_round_with (f : Z -> Z -> Z) (a : f64) : f64 :=
  match a with
  | S754_finite s m e =>
    if 0 <=? e then a
    else
      let v := f (if s then - Zpos m else Zpos m) (2 ^ (- e)) in
      if v =? 0 then S754_zero s else f_of_z v
  | _ => a
  end.
Definition ffloor := f_round_with (fun n d => n / d).
Definition fceil := f_round_with (fun n d => - ((- n) / d)).
Definition ftrunc := f_round_with (fun n d => Z.quot n d).
Definition fround := f_round_with (fun n d => Z.sgn n * ((2 * Z.abs n + d) / (2 * d))).

(** ** std::stod (Token.cpp 64, Environment.cpp ParseFloat) *)

Definition lower_prefix (p s : str) : bool := prefixb p (map to_lower_c s).

Definition is_hexdigit (c : ascii) : bool :=
  let n := nat_of_ascii (to_lower_c c) in (is_digit c || ((97 <=? n)%nat && (n <=? 102)%nat)).
Definition hex_val (c : ascii) : Z :=
  if is_digit c then digit_val c else Z.of_nat (nat_of_ascii (to_lower_c c)) - 87.

(** For std::stod, Token.cpp 64: mantissa digits with optional point: value, digits after the point, digits
    seen, bytes consumed.  A point without any digit is not consumed by the
    caller because then no digits were seen. *)
Fixpoint take_mant (isd : ascii -> bool) (val : ascii -> Z) (base : Z)
         (s : str) (dot : bool) (acc frac : Z) (nd n : nat) : Z * Z * nat * nat :=
  match s with
  | c :: s' =>
    if isd c then take_mant isd val base s' dot (acc * base + val c) (if dot then frac + 1 else frac) (S nd) (S n)
    else if negb dot && Ascii.eqb c "." then take_mant isd val base s' true acc frac nd (S n)
    else (acc, frac, nd, n)
  | [] => (acc, frac, nd, n)
  end.

(** For std::stod, Token.cpp 64: optional exponent introduced by [ec]: value and bytes consumed (0 if absent). *)
Definition take_exp (ec : ascii) (s : str) : Z * nat :=
  match s with
  | c :: s' =>
    if Ascii.eqb (to_lower_c c) ec then
      let '(sg, sn) := take_sign s' in
      let '(v, dn) := take_digits (skipn sn s') 0 0%nat in
      match dn with O => (0, 0%nat) | _ => (sg * v, (1 + sn + dn)%nat) end
    else (0, 0%nat)
  | [] => (0, 0%nat)
  end.

(** For std::stod, Token.cpp 64: the value [n / d] rounded, and whether errno becomes ERANGE: overflow to
    infinity, or an inexact result below the normal range (glibc).
    Simplification: tininess is decided on the exact value (before rounding). *)
Definition f_exact (f : f64) (n d : Z) : bool :=
  match f with
  | S754_zero _ => n =? 0
  | S754_finite _ m e =>
    if 0 <=? e then Zpos m * 2 ^ e * d =? n else Zpos m * d =? n * 2 ^ (- e)
  | _ => false
  end.

Definition f_frac_erange (sg : bool) (n d : Z) : f64 * bool :=
  match n, d with
  | Zpos n', Zpos d' =>
    let f := f_of_frac sg n' d' in
    let tiny := n * 2 ^ 1022 <? d in
    (f, match f with
        | S754_infinity _ | S754_nan => true
        | _ => tiny && negb (f_exact f n d)
        end)
  | _, _ => (S754_zero sg, false)
  end.

(** strtod, called by std::stod (Token.cpp 64, Environment.cpp 711) and atof (Variant.cpp 200): None if nothing could be converted; otherwise value, ERANGE and
    number of bytes consumed. *)
Definition strtod (s : str) : option (f64 * bool * nat) :=
  let ws := skip_space_count s in
  let s1 := skipn ws s in
  let '(sg, sn) := take_sign s1 in
  let neg := sg <? 0 in
  let s2 := skipn sn s1 in
  let pre := (ws + sn)%nat in
  if lower_prefix $"infinity" s2 then Some (S754_infinity neg, false, (pre + 8)%nat)
  else if lower_prefix $"inf" s2 then Some (S754_infinity neg, false, (pre + 3)%nat)
  else if lower_prefix $"nan" s2 then
    (* optional (n-char-sequence) *)
    let r := skipn 3 s2 in
    let isn c := is_digit c || (let n := nat_of_ascii (to_lower_c c) in ((97 <=? n) && (n <=? 122))%nat) || Ascii.eqb c "_" in
    match r with
    | c :: r' =>
      if Ascii.eqb c c_lpar then
        match find $")" r' with
        | Some k => if forallb isn (firstn k r') then Some (S754_nan, false, (pre + 5 + k)%nat)
                    else Some (S754_nan, false, (pre + 3)%nat)
        | None => Some (S754_nan, false, (pre + 3)%nat)
        end
      else Some (S754_nan, false, (pre + 3)%nat)
    | [] => Some (S754_nan, false, (pre + 3)%nat)
    end
  else
    let hex := if lower_prefix $"0x" s2 then take_mant is_hexdigit hex_val 16 (skipn 2 s2) false 0 0 0 0
               else (0, 0, 0%nat, 0%nat) in
    let '(hm, hf, hnd, hn) := hex in
    match hnd with
    | S _ =>
      let '(ex, en) := take_exp "p" (skipn (2 + hn) s2) in
      let e2 := ex - 4 * hf in
      let '(f, r) := if 0 <=? e2 then f_frac_erange neg (hm * 2 ^ e2) 1
                     else f_frac_erange neg hm (2 ^ (- e2)) in
      Some (f, r, (pre + 2 + hn + en)%nat)
    | O =>
      let '(m, fr, nd, n) := take_mant is_digit digit_val 10 s2 false 0 0 0 0 in
      match nd with
      | O => None
      | S _ =>
        let '(ex, en) := take_exp "e" (skipn n s2) in
        let e10 := ex - fr in
        let '(f, r) := if 0 <=? e10 then f_frac_erange neg (m * 10 ^ e10) 1
                       else f_frac_erange neg m (10 ^ (- e10)) in
        Some (f, r, (pre + n + en)%nat)
      end
    end.

Definition stod_pos (s : str) : out (f64 * nat) :=
  match strtod s with
  | None => Throw EInvalidArg
  | Some (f, true, _) => Throw EOutOfRange
  | Some (f, false, n) => Val (f, n)
  end.

Definition stod (s : str) : out f64 := let? r := stod_pos s in Val (fst r).

(** ** std::to_string(double): printf "%f", exact with six decimals, ties to even
    (csobject.cpp 322-381) *)
Definition round_div_even (n d : Z) : Z :=
  let q := n / d in
  let r := n mod d in
  if 2 * r <? d then q else if d <? 2 * r then q + 1 else if Z.even q then q else q + 1.

Definition pad6 (z : Z) : str :=
  let t := nonneg_to_string z in repeat (ascii_of_nat 48) (6 - length t) ++ t.

Definition f_to_string (a : f64) : str :=
  match a with
  | S754_zero s => (if s then $"-" else []) ++ $"0.000000"
  | S754_infinity s => (if s then $"-" else []) ++ $"inf"
  | S754_nan => $"nan"
  | S754_finite s m e =>
    let u := if 0 <=? e then Zpos m * 2 ^ e * 1000000
             else round_div_even (Zpos m * 1000000) (2 ^ (- e)) in
    (if s then $"-" else []) ++ nonneg_to_string (u / 1000000) ++ $"." ++ pad6 (u mod 1000000)
  end.
