(** Text of values and the conversions and operators of LispVariant: Variant.cpp,
    csobject.cpp.  All of these read the heap but do not change it. *)
Require Import String Ascii List ZArith Bool Lia.
Require Import PArith FMapPositive.
From Verif Require Import Base CppString Num Token Value State.
Import ListNotations.

(** Loops of the form: for each element, add a separator if the text so far is not
    empty, then add the element's text (csobject.cpp 344-351, Variant.cpp 711-718,
    725-733, 766-773). *)
Fixpoint join_out {A} (sep : str) (f : A -> out str) (es : list A) (acc : str) : out str :=
  match es with
  | [] => Val acc
  | e :: es' =>
    let acc1 := match acc with [] => acc | _ => acc ++ sep end in
    let? s := f e in
    join_out sep f es' (acc1 ++ s)
  end.

Definition dq : str := [c_dquote].

(** The mutually recursive text functions:
    [ShObj o]   object::ToString (csobject.cpp 322-381);
    [ShVar v]   LispVariant::ToString (Variant.cpp 251-298);
    [ShDbg v]   LispVariant::ToStringDebugger (Variant.cpp 242-249);
    [ShCont o]  ExpandContainerToString (Variant.cpp 759-782) with
                ExpandItemForContainer (300-311);
    [ShNat o]   GetNativeObjectStringRepresentation (Variant.cpp 701-752). *)
Inductive shreq :=
| ShObj (o : obj) | ShVar (v : variant) | ShDbg (v : variant) | ShCont (o : obj) | ShNat (o : option obj).

(** object::ToString and LispVariant::ToString, csobject.cpp 320-381 and Variant.cpp 237-311.  [n] bounds the depth of the recursion.  A structure that contains itself is
    followed forever in C++ until the stack overflows; running out of [n] therefore
    is [Undef UBStack].  [show_fuel] below is enough for any structure without a
    cycle. *)
Fixpoint show (n : nat) (st : state) (r : shreq) : out str :=
  match n with
  | O => Undef UBStack
  | S n' =>
    match r with
    | ShObj o =>
      match o with
      | OInt z => Val (z_to_string z)
      | ODouble f => Val (f_to_string f)
      | OString s => Val s
      | OBool b => Val (if b then $"true" else $"false")
      | OUndef => Val $"Undefined"
      | OList l =>
        let? es := get_vec l st in
        let? s := join_out $" " (fun p => let? o := deref p in show n' st (ShObj o)) es [] in
        Val ($"(" ++ s ++ $")")
      | ODict _ => Val $"Dictionary"
      | OVar v => show n' st (ShVar v)
      | OFun _ => Val $"LispFunctionWrapper"
      | OScope _ => Val $"LispScope"
      | OLValue _ | OMacro _ _ _ => Val $"<unknown>"
      end
    | ShVar v =>
      match v_ty v with
      | TSym => match v_val v with None => Undef UBTag | Some o => show n' st (ShObj o) end
      | TString => match v_val v with None => Val $"null" | Some o => show n' st (ShObj o) end
      | TInt => match v_val v with
                | Some (OInt z) => Val (z_to_string z)
                | Some _ => Undef UBTag | None => Undef UBTag end
      | TDouble => match v_val v with
                   | Some (ODouble f) => Val (f_to_string f)
                   | Some _ => Undef UBTag | None => Undef UBTag end
      | TBool => match v_val v with
                 | Some (OBool b) => Val (if b then $"#t" else $"#f")
                 | Some _ => Undef UBTag | None => Undef UBTag end
      | TNil => Val $"NIL"
      | TList => match v_val v with
                 | Some (OList l) => show n' st (ShCont (OList l))
                 | Some _ => Undef UBTag | None => Undef UBTag end
      | TFun => match v_val v with
                | Some (OFun f) => Val ($"function " ++ fn_sig f)
                | Some _ => Throw (ELispBase $"Invalid cast to lisp function wrapper.")
                | None => Undef UBTag end
      | TNative => show n' st (ShNat (v_val v))
      | TUndef => Val $"<undefined>"
      | TError => match v_val v with
                  | None => Undef UBTag
                  | Some o => let? s := show n' st (ShObj o) in Val ($"Error: " ++ s) end
      | TLValue => Val $"?"
      end
    | ShDbg v =>
      if is_ty TString v then
        match v_val v with
        | None => Val (dq ++ $"null" ++ dq)
        | Some o => let? s := show n' st (ShObj o) in Val (dq ++ s ++ dq)
        end
      else show n' st (ShVar v)
    | ShCont o =>
      match o with
      | OList l =>
        let? es := get_vec l st in
        let? s := join_out $" " (fun p => let? o := deref p in show n' st (ShCont o)) es [] in
        Val ($"(" ++ s ++ $")")
      | OVar v => if is_ty TString v then show n' st (ShDbg v) else show n' st (ShObj o)
      | _ => show n' st (ShObj o)
      end
    | ShNat None => Undef UBNullDeref
    | ShNat (Some o) =>
      match o with
      | ODict l =>
        let? d := get_dict l st in
        let? s := join_out $", " (fun kv : variant * option obj =>
                    let? k := show n' st (ShNat (v_val (fst kv))) in
                    let? w := show n' st (ShNat (snd kv)) in
                    Val ($"[" ++ k ++ $" : " ++ w ++ $"]")) d [] in
        Val ($"{ " ++ s ++ $" }")
      | OString s => Val (dq ++ s ++ dq)
      | OVar v => show n' st (ShDbg v)
      | _ => show n' st (ShObj o)
      end
    end
  end.

(** The bound for the same functions (csobject.cpp 320-381).  Each heap container on a path without repetition costs at most five levels, and
    the ends of the path a few more. *)
Definition show_fuel (st : state) : nat := 6 + 5 * Pos.to_nat (st_nloc st).

Definition obj_str (o : obj) (st : state) : out str := show (show_fuel st) st (ShObj o).
Definition var_str (v : variant) (st : state) : out str := show (show_fuel st) st (ShVar v).
Definition var_dbg (v : variant) (st : state) : out str := show (show_fuel st) st (ShDbg v).
(** p->ToString(), csobject.cpp 320-381. *)
Definition ptr_str (p : ptr) (st : state) : out str := let? o := deref p in obj_str o st.

(** LispVariant::StringValue, Variant.cpp 205-215. *)
Definition string_value (v : variant) (st : state) : out str :=
  match v_val v with Some o => obj_str o st | None => Val $"null" end.

(** throw CreateInvalidCastException(name, msg), Variant.cpp 562-567; msg defaults to
    "no" (Variant.h). *)
Definition cast_fail {A} (v : variant) (name msg : str) (st : state) : out A :=
  let? sv := string_value v st in
  let? m := Format $"Invalid cast for {2}, value={1} {0}" [msg; sv; name] in
  Throw (exn_tok m (v_tok v)).

(** throw CreateInvalidOperationException(op, l, r), Variant.cpp 569-574.  The types
    are enumerators converted to CppLisp::string through string(char). *)
Definition op_fail {A} (op : str) (l r : variant) : out A :=
  let code v := [ascii_of_nat (Z.to_nat (ltype_code (v_ty v) mod 256))] in
  let? m := Format $"no {0} operator for types {1} and {2}" [op; code l; code r] in
  Throw (exn_tok m (v_tok l)).

(** LispVariant::BoolValue, IntValue, DoubleValue: Variant.cpp 653-687. *)
Definition bool_value (v : variant) (st : state) : out bool :=
  if is_ty TBool v then
    match v_val v with Some (OBool b) => Val b | Some _ => Undef UBTag | None => Undef UBTag end
  else cast_fail v $"bool" $"no" st.
Definition int_value (v : variant) (st : state) : out Z :=
  if is_ty TInt v then
    match v_val v with Some (OInt z) => Val z | Some _ => Undef UBTag | None => Undef UBTag end
  else cast_fail v $"int" $"no" st.
Definition double_value (v : variant) (st : state) : out f64 :=
  if is_ty TDouble v then
    match v_val v with Some (ODouble f) => Val f | Some _ => Undef UBTag | None => Undef UBTag end
  else cast_fail v $"double" $"no" st.

(** Tolerance, Variant.cpp 34: the double nearest to 1e-8. *)
Definition tolerance : f64 := f_of_frac false 1 100000000.

Definition cannot_convert {A} (v : variant) (name : str) (st : state) : out A :=
  let? ts := type_string v in
  let? m := Format $"can not convert {0} to {1}" [ts; name] in
  cast_fail v name m st.

(** LispVariant::ToBool, Variant.cpp 146-161. *)
Definition to_bool (v : variant) (st : state) : out bool :=
  if is_ty TBool v then bool_value v st
  else if is_ty TInt v then let? i := int_value v st in Val (negb (i =? 0)%Z)
  else if is_ty TDouble v then let? d := double_value v st in Val (fltb tolerance (fabs d))
  else cannot_convert v $"bool" st.

(** atof, called in Variant.cpp 200: strtod of the C string, 0 when there is no number. *)
Definition atof (s : str) : f64 :=
  match strtod (cstr s) with Some (f, _, _) => f | None => f_of_z 0 end.

(** LispVariant::ToInt, Variant.cpp 163-182. *)
Definition to_int (v : variant) (st : state) : out Z :=
  if is_ty TBool v then let? b := bool_value v st in Val (if b then 1 else 0)%Z
  else if is_ty TInt v then int_value v st
  else if is_ty TDouble v then let? d := double_value v st in f_to_int d
  else if is_ty TString v then let? s := string_value v st in atoi (cstr s)
  else cannot_convert v $"int" st.

(** LispVariant::ToDouble, Variant.cpp 184-203. *)
Definition to_double (v : variant) (st : state) : out f64 :=
  if is_ty TBool v then let? b := bool_value v st in Val (f_of_z (if b then 1 else 0))
  else if is_ty TInt v then let? i := int_value v st in Val (f_of_z i)
  else if is_ty TDouble v then double_value v st
  else if is_ty TString v then let? s := string_value v st in Val (atof s)
  else cannot_convert v $"double" st.

(** LispVariant::ListValueRef, Variant.cpp 611-630 (NativeObjectValue 689-699 never
    throws, its condition cannot hold). *)
Definition list_value (v : variant) (st : state) : out (list ptr) :=
  match v_ty v with
  | TNil => Val []
  | TNative =>
    match v_val v with
    | None => Undef UBTag
    | Some _ => cast_fail v $"list" $"no" st
    end
  | TList =>
    match v_val v with
    | Some (OList l) => get_vec l st
    | Some _ => Undef UBTag
    | None => Undef UBTag
    end
  | _ => cast_fail v $"list" $"no" st
  end.

(** LispVariant::FunctionValue, Variant.cpp 576-586, with ToLispFunctionWrapper,
    csobject.cpp 497-504. *)
Definition function_value (v : variant) (st : state) : out fnval :=
  if is_ty TFun v then
    match v_val v with
    | Some (OFun f) => Val f
    | Some _ => Throw (ELispBase $"Invalid cast to lisp function wrapper.")
    | None => Undef UBTag
    end
  else cast_fail v $"function" $"not found" st.

(** The result of an int operation, Variant.cpp 367-440: signed overflow is undefined. *)
Definition int_res (z : Z) : out variant :=
  if in_int z then Val (vint z) else Undef UBOverflow.

(** The two branches shared by the arithmetic operators: Variant.cpp 391-441. *)
Definition arith (op : str) (fd : f64 -> f64 -> f64) (fi : Z -> Z -> out variant)
           (l r : variant) (st : state) : out variant :=
  if is_ty TDouble l || is_ty TDouble r then
    let? a := to_double l st in let? b := to_double r st in Val (vdouble (fd a b))
  else if is_ty TInt l || is_ty TInt r then
    let? a := to_int l st in let? b := to_int r st in fi a b
  else op_fail op l r.

(** Integer / and %, Variant.cpp 418-440: undefined for a zero divisor and for INT_MIN / -1. *)
Definition int_div (a b : Z) : out variant :=
  if (b =? 0)%Z || ((a =? int_min) && (b =? -1))%Z then Undef UBDivZero
  else Val (vint (Z.quot a b)).
Definition int_mod (a b : Z) : out variant :=
  if (b =? 0)%Z || ((a =? int_min) && (b =? -1))%Z then Undef UBDivZero
  else Val (vint (Z.rem a b)).

(** operator -, *, /, %: Variant.cpp 391-441. *)
Definition v_sub := arith $"-" fsub (fun a b => int_res (a - b)).
Definition v_mul := arith $"*" fmul (fun a b => int_res (a * b)).
Definition v_div := arith $"/" fdiv int_div.
Definition v_mod := arith $"%" ffmod int_mod.

(** operator +, Variant.cpp 367-389.  Needs the heap for the list case. *)
Definition v_add (l r : variant) : M variant :=
  if is_ty TString l || is_ty TString r then
    let! a := reads (string_value l) in let! b := reads (string_value r) in
    ret (vstr (a ++ b))
  else if is_ty TDouble l || is_ty TDouble r || is_ty TInt l || is_ty TInt r then
    reads (arith $"+" fadd (fun a b => int_res (a + b)) l r)
  else if is_list l && is_list r then
    let! a := reads (list_value l) in let! b := reads (list_value r) in
    let! o := new_list_obj (a ++ b) in ret (mkv TList o)
  else lift (op_fail $"+" l r).

(** operator < and <=, Variant.cpp 443-475. *)
Definition compare_op (op : str) (fd : f64 -> f64 -> bool) (fi : Z -> Z -> bool) (fs : comparison -> bool)
           (l r : variant) (st : state) : out bool :=
  if is_ty TDouble l || is_ty TDouble r then
    let? a := to_double l st in let? b := to_double r st in Val (fd a b)
  else if is_ty TInt l || is_ty TInt r then
    let? a := to_int l st in let? b := to_int r st in Val (fi a b)
  else if is_ty TString l || is_ty TString r then
    let? a := var_str l st in let? b := var_str r st in Val (fs (CompareOrdinal a b))
  else op_fail op l r.

Definition v_lt := compare_op $"< or >" fltb Z.ltb (fun c => match c with Lt => true | _ => false end).
Definition v_le := compare_op $"<= or >=" fleb Z.leb (fun c => match c with Gt => false | _ => true end).

(** std::vector<shared_ptr<object>> == (csobject.cpp 156) compares pointers element by element. *)
Definition ptr_eqb (p q : ptr) : bool :=
  match p, q with
  | PNull, PNull => true
  | P i _, P j _ => Pos.eqb i j
  | _, _ => false
  end.
Fixpoint ptrs_eqb (ps qs : list ptr) : bool :=
  match ps, qs with
  | [], [] => true
  | p :: ps', q :: qs' => ptr_eqb p q && ptrs_eqb ps' qs'
  | _, _ => false
  end.
(** std::map<string, shared_ptr<object>> ==, csobject.cpp 137-183. *)
Fixpoint vars_eqb (a b : list (str * ptr)) : bool :=
  match a, b with
  | [], [] => true
  | (k, p) :: a', (k', q) :: b' => str_eqb k k' && ptr_eqb p q && vars_eqb a' b'
  | _, _ => false
  end.

(** operator == of doubles (csobject.cpp 152): numerical, false for nan. *)
Definition feqb (a b : f64) : bool := fleb a b && fleb b a.

(** The cases object::operator== (csobject.cpp 137-183) and object::Equals (516-566)
    have in common. *)
Definition obj_eq_simple (a b : obj) (st : state) : out bool :=
  match a, b with
  | OUndef, OUndef => Val true
  | OBool x, OBool y => Val (Bool.eqb x y)
  | OInt x, OInt y => Val (x =? y)%Z
  | ODouble x, ODouble y => Val (feqb x y)
  | OString x, OString y => Val (str_eqb x y)
  | OList x, OList y => let? xs := get_vec x st in let? ys := get_vec y st in Val (ptrs_eqb xs ys)
  | OScope x, OScope y =>
    let? sx := get_scope x st in let? sy := get_scope y st in Val (vars_eqb (s_vars sx) (s_vars sy))
  | _, _ => Val false
  end.

(** object::operator==, csobject.cpp 137-183; the variant case goes to
    LispVariant::operator==, Variant.cpp 784-787, which compares the Values.  A
    Value is never itself a variant (Variant.cpp 57-77), so one level is enough. *)
Definition obj_eqb (a b : obj) (st : state) : out bool :=
  match a, b with
  | OVar v, OVar w =>
    match v_val v, v_val w with
    | Some x, Some y => obj_eq_simple x y st
    | _, _ => Undef UBNullDeref
    end
  | _, _ => obj_eq_simple a b st
  end.

(** SequenceEqual, cstypes.h 141-162, after the size test. *)
Fixpoint seq_eq (ps qs : list ptr) (st : state) : out bool :=
  match ps, qs with
  | p :: ps', q :: qs' =>
    let? a := deref p in let? b := deref q in
    let? e := obj_eqb a b st in
    if e then seq_eq ps' qs' st else Val false
  | _, _ => Val true
  end.
Definition sequence_equal (ps qs : list ptr) (st : state) : out bool :=
  if (length ps =? length qs)%nat then seq_eq ps qs st else Val false.

(** shared_ptr<object> == in Variant.cpp 479-515 of two native object Values: dictionaries are the only
    native objects (make-dict), compared by address. *)
Definition native_eqb (a b : option obj) : bool :=
  match a, b with
  | None, None => true
  | Some (ODict x), Some (ODict y) => Pos.eqb x y
  | _, _ => false
  end.

(** LispVariant::EqualOp, Variant.cpp 477-516. *)
Definition equal_op (l r : variant) (st : state) : out bool :=
  if is_ty TNative l && is_ty TNative r then Val (native_eqb (v_val l) (v_val r))
  else if is_ty TSym l || is_ty TSym r then
    if is_ty TSym l && is_ty TSym r then
      let? a := var_str l st in let? b := var_str r st in Val (str_eqb a b)
    else Val false
  else if is_ty TBool l && is_ty TBool r then
    let? a := bool_value l st in let? b := bool_value r st in Val (Bool.eqb a b)
  else if is_ty TNil l || is_ty TNil r then Val (is_ty TNil l && is_ty TNil r)
  else if is_list l && is_list r then
    let? a := list_value l st in let? b := list_value r st in sequence_equal a b st
  else if is_ty TUndef l || is_ty TUndef r then Val (is_ty TUndef l && is_ty TUndef r)
  else if is_ty TString l || is_ty TString r then
    let? a := var_str l st in let? b := var_str r st in Val (str_eqb a b)
  else if is_ty TDouble l || is_ty TDouble r then
    let? a := to_double l st in let? b := to_double r st in
    Val (fltb (fabs (fsub a b)) tolerance)
  else if is_ty TInt l || is_ty TInt r then
    let? a := to_int l st in let? b := to_int r st in Val (a =? b)%Z
  else op_fail $"==" l r.

(** LispVariant::SymbolCompare, Variant.cpp 323-331, with object::Equals
    (csobject.cpp 516-566) on the Values. *)
Definition symbol_compare (sym : variant) (p : ptr) (st : state) : out bool :=
  let? o := deref p in
  match o with
  | OVar w =>
    match v_val sym, v_val w with
    | Some a, Some b => obj_eq_simple a b st
    | _, _ => Undef UBNullDeref
    end
  | _ => Val false
  end.
