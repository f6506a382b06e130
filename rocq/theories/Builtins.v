(** The builtin functions that do not call the evaluator: Environment.cpp 267-1470,
    2149-2286.  Each has the type of FuncX: arguments and calling scope. *)
Require Import String Ascii List ZArith Bool Lia.
Require Import PArith FMapPositive.
From Verif Require Import Base CppString Num Token Value State Show ScopeOps.
Import ListNotations.

Definition result := option variant.
Definition some (v : variant) : M result := ret (Some v).

(** ToLispVariantRef, csobject.cpp 415-423, and (LispVariant) conversion of the i-th argument. *)
Definition argv (i : nat) (args : list ptr) : M variant := let! p := arg i args in lift (vref p).
Definition argc (i : nat) (args : list ptr) : M variant := let! p := arg i args in lift (var_of_ptr p).
(** args[i]->ToString(), csobject.cpp 320-381. *)
Definition args_str (i : nat) (args : list ptr) : M str := let! p := arg i args in reads (ptr_str p).

(** FuelFuncWrapper0/1/2, Environment.cpp 170-201, for functions on variants. *)
Definition wrap0 (name : str) (f : M variant) (args : list ptr) (s : sid) : M result :=
  check_args name (Some 0%nat) args s ;; let! v := f in some v.
Definition wrap1 (name : str) (f : variant -> M variant) (args : list ptr) (s : sid) : M result :=
  check_args name (Some 1%nat) args s ;;
  let! a := argv 0 args in let! v := f a in some v.
Definition wrap2 (name : str) (f : variant -> variant -> M variant) (args : list ptr) (s : sid) : M result :=
  check_args name (Some 2%nat) args s ;;
  let! a := argv 0 args in let! b := argv 1 args in let! v := f a b in some v.

(** Fuel, Version, Copyright: Environment.cpp 267-286 with the constants of Lisp.cpp 33-41. *)
Definition b_fuel (args : list ptr) (s : sid) : M result :=
  let! t := lift (Format $"fuel version {0} from {1}" [$"v0.99.6"; $"16.12.2023"]) in some (vstr t).
Definition b_version (args : list ptr) (s : sid) : M result :=
  let! t := lift (Format $"{0}" [$"v0.99.6"]) in some (vstr t).
Definition b_copyright (args : list ptr) (s : sid) : M result :=
  let! t := lift (Format $"Copyright: {0} {1}" [$"MIT-License"; $"http://opensource.org/licenses/MIT"]) in
  some (vstr t).

(** Help, Environment.cpp 290-301. *)
Definition b_help (args : list ptr) (s : sid) : M result :=
  let! sc := reads (get_scope s) in
  let t := $"available functions:" ++ [c_nl] ++ flat_map (fun kv : str * ptr => fst kv ++ [c_nl]) (s_vars sc) in
  write_line t ;; some (vstr t).

(** GetFormatedHelpString, cstypes.cpp 154-182. *)
Definition help_string (f : fnval) (sep splitter : str) (nd sd : str -> str) : out str :=
  let sig := fn_sig f in
  let? name :=
    if prefixb $"(" sig then
      let len := match find $" " sig with
                 | Some l => l
                 | None => match find $")" sig with
                           | Some O => length sig          (* 0 - 1 wraps around *)
                           | Some (S l) => l
                           | None => length sig            (* npos - 1 *)
                           end
                 end in
      let? n := substr sig 1 len in Val (nd n)
    else Val $"???" in
  let name := name ++ (if fn_sp f then $" [special form]" else []) ++ sep in
  let syntax := sd ($"Syntax: " ++ sig) ++ sep in
  let doc := (match fn_doc f with [] => $">not available<" | d => d end) ++ sep in
  Val (splitter ++ name ++ syntax ++ doc ++ [c_nl]).

(** GetFormatedDoc, GetHtmlFormatedDoc: cstypes.cpp 140-152. *)
Definition formated_doc (f : fnval) : out str :=
  let sep := [c_nl; c_nl] in
  help_string f sep ($"-------------------------------------------------" ++ sep) (fun x => x) (fun x => x).
Definition html_doc (f : fnval) : out str :=
  help_string f $"<br><br>" ($"<hr>" ++ $"<br>")
    (fun x => $"<b>" ++ x ++ $"</b>") (fun x => $"<code>" ++ x ++ $"</code>").

(** GetFunctionsHelpFormated, Scope.cpp 250-271. *)
Fixpoint functions_help (sel : str -> bool) (vars : list (str * ptr)) (st : state) : out str :=
  match vars with
  | [] => Val []
  | (k, p) :: vars' =>
    let? h := if sel k then
                let? v := vref p in let? f := function_value v st in formated_doc f
              else Val [] in
    let? r := functions_help sel vars' st in
    Val (h ++ r)
  end.

(** LispScope::Dump with a format function, Scope.cpp 289-326, as used by the help dumps
    (Scope.h 259-262, Scope.cpp 243): one line per builtin function; the keys of a
    std::map are sorted already. *)
Fixpoint dump_builtins (fmt : fnval -> out str) (vars : list (str * ptr)) (st : state) : out str :=
  match vars with
  | [] => Val []
  | (k, p) :: vars' =>
    let? h :=
      if prefixb k_metatag k then Val []
      else
        let? v := vref p in
        if is_ty TFun v then
          let? f := function_value v st in
          if fn_bi f then
            let? d := fmt f in let? t := Format $"{0}" [d] in Val (t ++ [c_nl])
          else Val []
        else Val [] in
    let? r := dump_builtins fmt vars' st in
    Val (h ++ r)
  end.

(** DumpDocumentation, Environment.cpp 303-312: the text goes to a temporary writer and
    is returned.  If the dump throws, the global scope keeps the temporary
    writer; that case is not modelled. *)
Definition dump_documentation (f : state -> out str) : M result := fun st =>
  match f st with
  | Val t => (Val (Some (vstr t)), st)
  | Throw _ => (Unmod $"exception while the documentation is written", st)
  | Undef u => (Undef u, st) | Unmod w => (Unmod w, st) | NoFuel => (NoFuel, st)
  end.

(** Environment.cpp 316-329: help text of one argument; every entry of ###macros### is taken for a
    scope, which no macro is. *)
Fixpoint doc_items (sel : str -> str -> bool) (items : list ptr) (s : sid) : M str :=
  match items with
  | [] => ret []
  | it :: items' =>
    let! name := reads (ptr_str it) in
    let! sc := reads (get_scope s) in
    let! h := reads (functions_help (fun k => sel k name) (s_vars sc)) in
    let! mp := scope_index (s_global sc) k_macros in
    let! ms := lift (scope_ref mp) in
    let! msc := reads (get_scope ms) in
    match s_vars msc with
    | [] => let! r := doc_items sel items' s in ret (h ++ r)
    | (_, PNull) :: _ => undef UBNullDeref
    | (_, P _ (OScope _)) :: _ => unmod $"a scope stored as a macro"
    | (_, P _ _) :: _ => undef UBNullDeref
    end
  end.

(** DoSearchDocumentation, Environment.cpp 314-332. *)
Definition search_documentation (sel : str -> str -> bool) (args : list ptr) (s : sid) : M result :=
  match args with
  | [] =>
    let! sc := reads (get_scope s) in
    let! g := reads (get_scope (s_global sc)) in
    dump_documentation (dump_builtins formated_doc (s_vars g))
  | _ =>
    let! help := doc_items sel args s in
    dump_documentation (fun st => let? t := Format $"{0}" [help] in Val (t ++ [c_nl]))
  end.
(** Documentation and SearchDocumentation, Environment.cpp 339-347. *)
Definition b_doc := search_documentation (fun k n => prefixb n k).
Definition contains (s t : str) : bool := match find t s with Some _ => true | None => false end.
Definition b_searchdoc := search_documentation (fun k n => contains k n).

(** HtmlDocumentation, Environment.cpp 334-337, Scope.cpp 233-246. *)
Definition b_htmldoc (args : list ptr) (s : sid) : M result :=
  let! sc := reads (get_scope s) in
  let! g := reads (get_scope (s_global sc)) in
  dump_documentation (fun st =>
    let? d := dump_builtins html_doc (s_vars g) st in
    let ln t := t ++ [c_nl] in
    Val (ln $"<html>" ++ ln $"<head>" ++ ln $"<title>" ++ ln $"Documentation of fuel language" ++
         ln $"</title>" ++ ln $"</head>" ++
         ln $"<h2>Documentation of builtin functions of the fuel language:</h2>" ++ ln $"<body>" ++
         d ++ ln $"</body>" ++ ln $"</html>")).

(** Vars, Environment.cpp 365-370, DumpVars Scope.h 237-240, Dump Scope.cpp 289-326. *)
Fixpoint dump_vars (vars : list (str * ptr)) : M unit :=
  match vars with
  | [] => ret tt
  | (k, p) :: vars' =>
    (if prefixb k_metatag k then ret tt
     else
       let! v := lift (vref p) in
       let! sel := if is_ty TFun v then let! f := reads (function_value v) in ret (negb (fn_bi f)) else ret true in
       if sel then
         let! d := reads (var_dbg v) in
         let! t := lift (type_string v) in
         write_fmt $"{0,20} --> {1,-40} : {2} {3}" [k; d; t; []]
       else ret tt) ;;
    dump_vars vars'
  end.
Definition b_vars (args : list ptr) (s : sid) : M result :=
  write_line $"variables:" ;;
  let! sc := reads (get_scope s) in
  dump_vars (s_vars sc) ;; some vundef.

(** DelVar, Environment.cpp 372-375. *)
Definition b_delvar (args : list ptr) (s : sid) : M result :=
  wrap1 $"delvar" (fun v =>
    let! n := reads (var_str v) in
    let! r := reads (scope_find s n) in
    mod_scope s (fun sc => set_vars (vars_remove n (s_vars sc)) sc) ;;
    ret (vbool (match r with Some _ => true | None => false end))) args s.

(** NeedLValue, Environment.cpp 379-382. *)
Definition b_needlvalue (args : list ptr) (s : sid) : M result :=
  wrap0 $"need-l-value" (let! sc := reads (get_scope s) in ret (vbool (s_needlv sc))) args s.

(** TracePrint, GetTracePrint: Environment.cpp 384-395. *)
Definition b_trace (args : list ptr) (s : sid) : M result :=
  let! v := argv 0 args in
  let! b := reads (bool_value v) in
  let! p := new_ptr (OBool b) in
  scope_set s k_traceon p ;; some (vbool b).
Definition b_gettrace (args : list ptr) (s : sid) : M result :=
  let! p := scope_index s k_tracebuffer in
  let! t := reads (ptr_str p) in some (vstr t).

(** _Sleep, Environment.cpp 434-439; the delay itself is left out. *)
Definition b_sleep (args : list ptr) (s : sid) : M result :=
  let! v := argc 0 args in let! _ := reads (to_int v) in some vundef.

(** Platform, Environment.cpp 486-495, for Linux with 64-bit pointers.  The list elements
    are raw strings, not variants. *)
Definition b_platform (args : list ptr) (s : sid) : M result :=
  let! a := new_ptr (OString $"UNIX") in
  let! b := new_ptr (OString $"C++") in
  let! c := new_ptr (OString $"64bit") in
  let! o := new_list_obj [a; b; c] in some (mkv TList o).

(** Nop, Return, GetType, GetTypeString: Environment.cpp 603-622. *)
Definition b_nop (args : list ptr) (s : sid) : M result := some vundef.
Definition b_return (args : list ptr) (s : sid) : M result :=
  mod_scope s (set_inret true) ;; let! v := argc 0 args in some v.
Definition b_type := wrap1 $"type" (fun v => ret (vint (ltype_code (v_ty v)))).
Definition b_typestr := wrap1 $"typestr" (fun v => let! t := lift (type_string v) in ret (vstr t)).

(** Print, PrintLn: Environment.cpp 624-636. *)
Definition b_print (args : list ptr) (s : sid) : M result :=
  let! t := string_repr args s in write_out t ;; some (vstr t).
Definition b_println (args : list ptr) (s : sid) : M result :=
  let! t := string_repr args s in write_line t ;; some (vstr t).

(** p->ToString(), csobject.cpp 320-381, of every pointer, from left to right. *)
Fixpoint ptrs_str (ps : list ptr) (st : state) : out (list str) :=
  match ps with
  | [] => Val []
  | p :: ps' => let? t := ptr_str p st in let? ts := ptrs_str ps' st in Val (t :: ts)
  end.

(** Format, Environment.cpp 638-667. *)
Definition b_format (args : list ptr) (s : sid) : M result :=
  check_opt_args $"format" 1 6 args s ;;
  let! ts := reads (ptrs_str args) in
  match ts with
  | [] => undef UBIndex
  | f :: rest => let! t := lift (Format f rest) in some (vstr t)
  end.

(** Flush, ReadLine: Environment.cpp 669-680. *)
Definition b_flush (args : list ptr) (s : sid) : M result :=
  check_args $"flush" (Some 0%nat) args s ;; some vundef.
Definition b_readline := wrap0 $"readline" (let! l := read_line in ret (vstr l)).

(** catch (...) { return Undefined }, Environment.cpp 697-700 and 713-716. *)
Definition catch_all (m : M result) : M result := try_catch m (fun _ => Some (some vundef)).

(** ParseInteger, ParseFloat: Environment.cpp 682-718. *)
Definition b_parseint (args : list ptr) (s : sid) : M result :=
  check_args $"parse-integer" (Some 1%nat) args s ;;
  catch_all (
    let! v := argc 0 args in
    let! t := reads (var_str v) in
    let! r := lift (stoi_pos t) in
    if (snd r <? length t)%nat then throw (ELispBase $"format error")
    else some (vint (fst r))).
Definition b_parsefloat (args : list ptr) (s : sid) : M result :=
  check_args $"parse-float" (Some 1%nat) args s ;;
  catch_all (
    let! v := argc 0 args in
    let! t := reads (var_str v) in
    let! d := lift (stod t) in some (vdouble d)).

(** ToInt, ToFloat: Environment.cpp 720-766.  The last line makes an object from the
    enumerator _Undefined, which is the int 0. *)
Definition b_int (args : list ptr) (s : sid) : M result :=
  check_args $"int" (Some 1%nat) args s ;;
  let! v := argc 0 args in
  if is_ty TInt v then let! i := reads (int_value v) in some (vint i)
  else if is_ty TDouble v then
    let! d := reads (double_value v) in let! i := lift (f_to_int d) in some (vint i)
  else if is_ty TString v then b_parseint args s
  else if is_ty TBool v then let! b := reads (bool_value v) in some (vint (if b then 1 else 0))
  else some (vint 0).
Definition b_float (args : list ptr) (s : sid) : M result :=
  check_args $"float" (Some 1%nat) args s ;;
  let! v := argc 0 args in
  if is_ty TInt v then let! i := reads (int_value v) in some (vdouble (f_of_z i))
  else if is_ty TDouble v then let! d := reads (double_value v) in some (vdouble d)
  else if is_ty TString v then b_parsefloat args s
  else if is_ty TBool v then let! b := reads (bool_value v) in some (vdouble (f_of_z (if b then 1 else 0)))
  else some (vint 0).

(** source.find(text, pos), Environment.cpp 770-796, for an int converted to size_t: a negative position is past
    the end. *)
Definition find_z (needle s : str) (pos : Z) : option nat :=
  if (pos <? 0)%Z || (Z.of_nat (length s) <? pos)%Z then None else find_from needle s (Z.to_nat pos).

(** source.find(text.c_str(), pos, len), csstring.h 161-164: searches for the first
    [len] bytes of the text's storage; reading past the terminating NUL is
    undefined. *)
Definition find_len (needle s : str) (pos len : Z) : out (option nat) :=
  if (len <? 0)%Z || (Z.of_nat (length needle) + 1 <? len)%Z then Undef UBIndex
  else Val (find_z (firstn (Z.to_nat len) (needle ++ [c_nul])) s pos).

(** The position in a list of the first element with the given text, Environment.cpp 798-809. *)
Fixpoint search_list (t : str) (es : list ptr) (i : Z) (st : state) : out Z :=
  match es with
  | [] => Val (-1)%Z
  | e :: es' =>
    let? x := ptr_str e st in
    if str_eqb t x then Val i else search_list t es' (i + 1)%Z st
  end.

(** Search, Environment.cpp 768-816.  -1 is npos, for the arguments (int -1 converted to
    size_t) as for the result.  The throw is reached only for a variant, object type 11. *)
Definition b_search (args : list ptr) (s : sid) : M result :=
  check_opt_args $"search" 2 4 args s ;;
  let! v0 := argc 0 args in
  let! text := reads (var_str v0) in
  let! v1 := argv 1 args in
  let! pos := if (2 <? length args)%nat then let! v := argc 2 args in reads (to_int v) else ret (-1)%Z in
  let! len := if (3 <? length args)%nat then let! v := argc 3 args in reads (to_int v) else ret (-1)%Z in
  let ofpos o := some (vint (match o with Some n => wrap32 (Z.of_nat n) | None => -1 end)) in
  if is_ty TString v1 then
    let! c1 := argc 1 args in
    let! source := reads (var_str c1) in
    if (pos =? -1)%Z then ofpos (find text source)
    else if (len =? -1)%Z then ofpos (find_z text source pos)
    else let! r := lift (find_len text source pos len) in ofpos r
  else if is_list v1 then
    let! es := reads (list_value v1) in
    let! i := reads (search_list text es 0) in some (vint (wrap32 i))
  else throw (ELispBase ($"search not supported for type " ++ [ascii_of_nat 11])).

(** Substring in Environment.cpp 816-833: value.substr(start) and substr(start, len) with an int start converted to size_t. *)
Definition substr_z (s : str) (start : Z) (len : option Z) : out str :=
  if (start <? 0)%Z || (Z.of_nat (length s) <? start)%Z then Throw EOutOfRange
  else match len with
       | None => substr_from s (Z.to_nat start)
       | Some l => substr s (Z.to_nat start) (Z.to_nat (Z.min l (Z.of_nat (length s))))
       end.

(** Slice, Replace, Trim, LowerCase, UpperCase: Environment.cpp 818-863. *)
Definition b_slice (args : list ptr) (s : sid) : M result :=
  check_args $"slice" (Some 3%nat) args s ;;
  let! v0 := argc 0 args in let! t := reads (var_str v0) in
  let! v1 := argc 1 args in let! start := reads (to_int v1) in
  let! v2 := argc 2 args in let! len := reads (to_int v2) in
  let! r := lift (substr_z t start (if (0 <=? len)%Z then Some len else None)) in
  some (vstr r).
Definition b_replace (args : list ptr) (s : sid) : M result :=
  check_args $"replace" (Some 3%nat) args s ;;
  let! t := args_str 0 args in let! a := args_str 1 args in let! b := args_str 2 args in
  some (vstr (Replace t a b)).
Definition b_strfun (name : str) (f : str -> out str) :=
  wrap1 name (fun v => let! t := reads (var_str v) in let! r := lift (f t) in ret (vstr r)).
Definition b_trim := b_strfun $"trim" Trim.
Definition b_lower := b_strfun $"lower-case" ToLower.
Definition b_upper := b_strfun $"upper-case" ToUpper.

(** ArithmetricOperation, Environment.cpp 865-880; null without arguments. *)
Fixpoint arith_loop (op : variant -> variant -> M variant) (args : list ptr) (acc : variant) : M result :=
  match args with
  | [] => some acc
  | p :: args' =>
    let! v := lift (var_of_ptr p) in
    let! r := op acc v in arith_loop op args' r
  end.
Definition arith_operation (op : variant -> variant -> M variant) (args : list ptr) : M result :=
  match args with
  | [] => ret None
  | p :: args' => let! v := lift (var_of_ptr p) in arith_loop op args' v
  end.

(** Addition ... Modulo: Environment.cpp 887-925. *)
Definition b_add (args : list ptr) (s : sid) : M result := arith_operation v_add args.
Definition b_sub (args : list ptr) (s : sid) : M result :=
  match args with
  | [p] =>
    let! v := lift (var_of_ptr p) in
    if is_ty TInt v then
      let! i := reads (int_value v) in let! r := lift (int_res (- i)) in some r
    else if is_ty TDouble v then let! d := reads (double_value v) in some (vdouble (fneg d))
    else
      let! t := lift (type_string v) in
      let! m := lift (Format $"Unary operator - not available for {0}" [t]) in
      throw (ELispBase m)
  | _ => arith_operation (fun l r => reads (v_sub l r)) args
  end.
Definition b_mul (args : list ptr) (s : sid) : M result := arith_operation (fun l r => reads (v_mul l r)) args.
Definition b_div (args : list ptr) (s : sid) : M result := arith_operation (fun l r => reads (v_div l r)) args.
Definition b_mod (args : list ptr) (s : sid) : M result := arith_operation (fun l r => reads (v_mod l r)) args.

(** Not, Environment.cpp 927-930. *)
Definition b_not := wrap1 $"not" (fun v => let! b := reads (bool_value v) in ret (vbool (negb b))).

(** Shifts and bit operations: Environment.cpp 932-960.  A shift count outside 0..31 and a
    left shift of a negative value or with a result above the maximum are
    undefined (C++11 5.8); >> of a negative value is the arithmetic shift. *)
Definition int_op (f : Z -> Z -> out Z) (a b : variant) : M variant :=
  let! x := reads (int_value a) in let! y := reads (int_value b) in
  let! r := lift (f x y) in ret (vint r).
Definition shl (a b : Z) : out Z :=
  if (b <? 0)%Z || (31 <? b)%Z || (a <? 0)%Z then Undef UBOverflow
  else let r := Z.shiftl a b in if in_int r then Val r else Undef UBOverflow.
Definition shr (a b : Z) : out Z :=
  if (b <? 0)%Z || (31 <? b)%Z then Undef UBOverflow else Val (Z.shiftr a b).
Definition b_shl := wrap2 $"lef-shift" (int_op shl).
Definition b_shr := wrap2 $"right-shift" (int_op shr).
Definition b_bitor := wrap2 $"lef-shift" (int_op (fun a b => Val (Z.lor a b))).
Definition b_bitand := wrap2 $"lef-shift" (int_op (fun a b => Val (Z.land a b))).
Definition b_bitxor := wrap2 $"lef-shift" (int_op (fun a b => Val (Z.lxor a b))).
Definition b_bitnot := wrap1 $"binary-not" (fun v => let! i := reads (int_value v) in ret (vint (Z.lnot i))).

(** Comparisons, Environment.cpp 962-990; > and >= are < and <= with the operands
    exchanged (Variant.h 369-377). *)
Definition cmp_fun (name : str) (f : variant -> variant -> state -> out bool) :=
  wrap2 name (fun a b => let! r := reads (f a b) in ret (vbool r)).
Definition b_lt := cmp_fun $"<" v_lt.
Definition b_gt := cmp_fun $">" (fun l r => v_lt r l).
Definition b_le := cmp_fun $"<=" v_le.
Definition b_ge := cmp_fun $">=" (fun l r => v_le r l).
Definition b_eq := cmp_fun $"==" equal_op.
Definition b_ne := cmp_fun $"!=" (fun l r st => let? b := equal_op l r st in Val (negb b)).

(** CreateList, Environment.cpp 992-1001. *)
Definition list_result (es : list ptr) : M result := let! o := new_list_obj es in some (mkv TList o).
Definition b_list (args : list ptr) (s : sid) : M result := list_result args.

(** Cons, Environment.cpp 1043-1068. *)
Definition b_cons (args : list ptr) (s : sid) : M result :=
  match args with
  | [] => list_result []
  | [x] => list_result [x]
  | x :: y :: _ =>
    let! v := lift (vref y) in
    if is_list v then let! es := reads (list_value v) in list_result (x :: es)
    else list_result [x; y]
  end.

(** Length, Environment.cpp 1070-1088. *)
Definition b_len (args : list ptr) (s : sid) : M result :=
  check_args $"len" (Some 1%nat) args s ;;
  let! v := argv 0 args in
  let count n := some (vint (wrap32 (Z.of_nat n))) in
  let rest :=
    if is_ty TString v then let! t := reads (string_value v) in count (length t)
    else let! es := reads (list_value v) in count (length es) in
  if is_ty TNative v then
    match v_val v with
    | None => undef UBTag
    | Some (ODict l) => let! d := reads (get_dict l) in count (length d)
    | Some _ => rest
    end
  else rest.

(** A setter for the first, last or nth element, LispVariant(action): Variant.cpp 79-85. *)
Definition vlvalue (lv : lval) : variant := mkv TLValue (OLValue lv).

(** LispVariant(es[i]) in Environment.cpp 1090-1192: reading beyond the vector is undefined. *)
Definition elem_at (es : list ptr) (i : nat) : M result :=
  match nth_error es i with
  | Some p => let! v := lift (var_of_ptr p) in some v
  | None => undef UBIndex
  end.

(** First, Last, Rest, Nth: Environment.cpp 1090-1192. *)
Definition b_first (args : list ptr) (s : sid) : M result :=
  check_args $"first" (Some 1%nat) args s ;;
  let! p := arg 0 args in let! v := lift (vref p) in
  if is_ty TString v then
    let! t := reads (string_value v) in let! r := lift (substr t 0 1) in some (vstr r)
  else
    let! sc := reads (get_scope s) in
    if s_needlv sc then some (vlvalue (LvFirst p))
    else let! es := reads (list_value v) in elem_at es 0.
Definition b_last (args : list ptr) (s : sid) : M result :=
  check_args $"last" (Some 1%nat) args s ;;
  let! p := arg 0 args in let! v := lift (vref p) in
  if is_ty TString v then
    let! t := reads (string_value v) in
    let! r := lift (substr_z t (Z.of_nat (length t) - 1) None) in some (vstr r)
  else
    let! sc := reads (get_scope s) in
    if s_needlv sc then some (vlvalue (LvLast p))
    else
      let! es := reads (list_value v) in
      match es with [] => undef UBIndex | _ => elem_at es (length es - 1) end.
Definition b_rest (args : list ptr) (s : sid) : M result :=
  check_args $"rest" (Some 1%nat) args s ;;
  let! v := argv 0 args in
  if is_ty TString v then
    let! t := reads (string_value v) in let! r := lift (substr_from t 1) in some (vstr r)
  else
    let! es := reads (list_value v) in
    match es with
    | [] => undef UBIndex
    | _ :: es' => list_result es'
    end.
Definition b_nth (args : list ptr) (s : sid) : M result :=
  check_args $"nth" (Some 2%nat) args s ;;
  let! v0 := argv 0 args in let! i := reads (int_value v0) in
  let! p := arg 1 args in let! v := lift (vref p) in
  if is_ty TString v then
    let! t := reads (string_value v) in let! r := lift (substr_z t i (Some 1%Z)) in some (vstr r)
  else
    let! sc := reads (get_scope s) in
    if s_needlv sc then some (vlvalue (LvNth p i))
    else
      let! es := reads (list_value v) in
      if (i <? 0)%Z || (Z.of_nat (length es) <=? i)%Z then undef UBIndex
      else elem_at es (Z.to_nat i).

(** ListValueNotConstRef, Variant.cpp 632-651: the vector inside the value.  [None] is
    the shared empty vector returned for nil. *)
Definition list_loc (v : variant) (st : state) : out (option loc) :=
  match v_ty v with
  | TNil => Val None
  | TList =>
    match v_val v with
    | Some (OList l) => Val (Some l)
    | Some _ => Undef UBTag
    | None => Undef UBTag
    end
  | _ => cast_fail v $"list" $"no" st
  end.
Definition loc_elems (l : option loc) (st : state) : out (list ptr) :=
  match l with None => Val [] | Some l => get_vec l st end.

(** std::vector insert and erase in Environment.cpp 1194-1238: es with [x] inserted before position [i], for i <= length. *)
Definition insert_at (i : nat) (x : ptr) (es : list ptr) : list ptr := firstn i es ++ x :: skipn i es.
Definition remove_at (i : nat) (es : list ptr) : list ptr := firstn i es ++ skipn (S i) es.

(** GetLispType, Environment.cpp 2288-2296. *)
Definition lisp_type (p : ptr) : out str :=
  let? o := deref p in
  match o with OVar v => type_string v | _ => Val (type_name o) end.

(** Push, Environment.cpp 1194-1215. *)
Definition b_push (args : list ptr) (s : sid) : M result :=
  check_opt_args $"push" 2 3 args s ;;
  let! val := argv 0 args in
  let! p := arg 1 args in let! lst := lift (vref p) in
  let! pos := if (2 <? length args)%nat then let! v := argv 2 args in reads (to_int v) else ret 0%Z in
  if is_list lst then
    let! l := reads (list_loc lst) in
    let! es := reads (loc_elems l) in
    if (pos <? Z.of_nat (length es))%Z then
      if (pos <? 0)%Z then undef UBIndex
      else
        let! np := new_var_ptr val in
        match l with
        | None => undef UBIndex                   (* not reached: no position below 0 elements *)
        | Some l =>
          let es' := insert_at (Z.to_nat pos) np es in
          put_vec l es' ;; list_result es'
        end
    else some vnil
  else
    let! t := lift (lisp_type p) in throw (ELispBase ($"push not supported for type " ++ t)).

(** Pop, Environment.cpp 1217-1238. *)
Definition b_pop (args : list ptr) (s : sid) : M result :=
  check_opt_args $"pop" 1 2 args s ;;
  let! p := arg 0 args in let! lst := lift (vref p) in
  let! pos := if (1 <? length args)%nat then let! v := argv 1 args in reads (to_int v) else ret 0%Z in
  if is_list lst then
    let! l := reads (list_loc lst) in
    let! es := reads (loc_elems l) in
    if (pos <? Z.of_nat (length es))%Z then
      if (pos <? 0)%Z then undef UBIndex
      else
        match l, nth_error es (Z.to_nat pos) with
        | Some l, Some e =>
          put_vec l (remove_at (Z.to_nat pos) es) ;;
          let! v := lift (var_of_ptr e) in some v
        | _, _ => undef UBIndex                   (* not reached *)
        end
    else some vnil
  else
    let! t := lift (lisp_type p) in throw (ELispBase ($"pop not supported for type " ++ t)).

(** Append, Environment.cpp 1240-1253. *)
Fixpoint append_lists (args : list ptr) (st : state) : out (list ptr) :=
  match args with
  | [] => Val []
  | p :: args' =>
    let? v := vref p in let? es := list_value v st in
    let? r := append_lists args' st in Val (es ++ r)
  end.
Definition b_append (args : list ptr) (s : sid) : M result :=
  let! es := reads (append_lists args) in list_result es.

(** Reverse, Environment.cpp 1255-1269. *)
Definition b_reverse (args : list ptr) (s : sid) : M result :=
  check_args $"reverse" (Some 1%nat) args s ;;
  let! v := argv 0 args in
  if is_ty TString v then let! t := reads (string_value v) in some (vstr (rev t))
  else let! es := reads (list_value v) in list_result (rev es).

(** SymbolFcn, ConvertToString: Environment.cpp 1282-1306. *)
Definition b_sym (args : list ptr) (s : sid) : M result :=
  check_args $"sym" (Some 1%nat) args s ;;
  let! t := args_str 0 args in some (mkv TSym (OString t)).
Definition b_str (args : list ptr) (s : sid) : M result :=
  check_args $"str" (Some 1%nat) args s ;;
  let! t := args_str 0 args in
  let! v := argv 0 args in
  if is_ty TNative v then
    let! n := reads (fun st => show (show_fuel st) st (ShNat (v_val v))) in some (vstr n)
  else some (vstr t).

(** ArgsCountFcn, ArgsFcn, ArgFcn: Environment.cpp 1308-1332. *)
Definition args_list (s : sid) : M (list ptr) :=
  let! p := scope_index s k_args in reads (list_ref p).
Definition b_argscount (args : list ptr) (s : sid) : M result :=
  wrap0 $"argscount" (let! es := args_list s in ret (vint (wrap32 (Z.of_nat (length es))))) args s.
Definition b_args (args : list ptr) (s : sid) : M result :=
  check_args $"args" (Some 0%nat) args s ;;
  let! es := args_list s in list_result es.
Definition b_arg (args : list ptr) (s : sid) : M result :=
  check_args $"arg" (Some 1%nat) args s ;;
  let! v := argv 0 args in let! i := reads (int_value v) in
  let! es := args_list s in
  if (0 <=? i)%Z && (i <? Z.of_nat (length es))%Z then elem_at es (Z.to_nat i)
  else
    let! m := lift (Format $"Index out of range in args function (index={0} max={1})"
                      [z_to_string i; z_to_string (Z.of_nat (length es))]) in
    throw (ELispBase m).

(** ** Dictionaries: std::map<LispVariant, shared_ptr<object>> ordered by operator<. *)

(** args[0]->ToLispVariantRef().Value->ToDictionary(), Environment.cpp 1394-1470: the union member is read without
    a check. *)
Definition dict_arg (args : list ptr) : M loc :=
  let! v := argv 0 args in
  match v_val v with
  | None => undef UBNullDeref
  | Some (ODict l) => ret l
  | Some _ => undef UBBadCast
  end.

(** For std::map (cstypes.h 182-230): where a key belongs among the entries: the entries before it, the entry with an
    equivalent key if there is one, and the entries after it. *)
Record dpos := DPos { dp_before : dictv; dp_hit : option (variant * option obj); dp_after : dictv }.

Fixpoint all_lt_keys (d : dictv) (f : variant -> out bool) : out (list bool) :=
  match d with
  | [] => Val []
  | (k, _) :: d' => let? b := f k in let? r := all_lt_keys d' f in Val (b :: r)
  end.

(** For std::map (cstypes.h 182-230): [n] leading trues and nothing but falses behind them. *)
Fixpoint count_leading (bs : list bool) : nat :=
  match bs with true :: bs' => S (count_leading bs') | _ => 0 end.
Definition trues_first (bs : list bool) : bool := forallb negb (skipn (count_leading bs) bs).

(** The search std::map (cstypes.h 182-230) does for [key] (lower_bound, find, operator[], erase).  The code
    walks a balanced tree; which comparisons it makes depends on the shape of the
    tree.  If every comparison with a stored key succeeds and the answers are
    those of a sorted sequence, the result is determined and given here.  If the
    answers contradict a sorted sequence the map is used with an invalid order:
    [UBComparator].  If some comparison throws, the outcome is known when there is just
    one stored key; otherwise it is not modelled. *)
Definition dict_locate (key : variant) (d : dictv) (st : state) : out dpos :=
  match d with
  | [] => Val (DPos [] None [])
  | [(k, o)] =>
    let? a := v_lt k key st in
    if a then Val (DPos d None [])
    else
      let? b := v_lt key k st in
      if b then Val (DPos [] None d) else Val (DPos [] (Some (k, o)) [])
  | _ =>
    match all_lt_keys d (fun k => v_lt k key st), all_lt_keys d (fun k => v_lt key k st) with
    | Val lts, Val gts =>
      let n := count_leading lts in
      let m := count_leading (map negb gts) in
      if trues_first lts && trues_first (map negb gts) then
        if (m =? n)%nat then Val (DPos (firstn n d) None (skipn n d))
        else if (m =? S n)%nat then
          Val (DPos (firstn n d) (nth_error d n) (skipn m d))
        else Undef UBComparator
      else Undef UBComparator
    | Undef u, _ => Undef u
    | _, Undef u => Undef u
    | _, _ => Unmod $"comparison of dictionary keys throws"
    end
  end.

(** MakeDict ... DictContainsValue: Environment.cpp 1384-1470. *)
Definition b_makedict (args : list ptr) (s : sid) : M result :=
  check_args $"make-dict" (Some 0%nat) args s ;;
  let! l := alloc_dict [] in some (mkv TNative (ODict l)).
Definition b_dictset (args : list ptr) (s : sid) : M result :=
  check_args $"dict-set" (Some 3%nat) args s ;;
  let! l := dict_arg args in
  let! key := argv 1 args in
  let! value := argv 2 args in
  let! d := reads (get_dict l) in
  let! p := reads (dict_locate key d) in
  let k := match dp_hit p with Some (k, _) => k | None => key end in
  put_dict l (dp_before p ++ (k, v_val value) :: dp_after p) ;;
  some value.
Definition b_dictget (args : list ptr) (s : sid) : M result :=
  check_args $"dict-get" (Some 2%nat) args s ;;
  let! l := dict_arg args in
  let! key := argv 1 args in
  let! d := reads (get_dict l) in
  let! p := reads (dict_locate key d) in
  match dp_hit p with
  | None => some (var_of_obj OUndef)
  | Some (_, None) => undef UBNullDeref
  | Some (_, Some o) => some (var_of_obj o)
  end.
Definition b_dictremove (args : list ptr) (s : sid) : M result :=
  check_args $"dict-remove" (Some 2%nat) args s ;;
  let! l := dict_arg args in
  let! key := argv 1 args in
  let! d := reads (get_dict l) in
  let! p := reads (dict_locate key d) in
  match dp_hit p with
  | None => some (vbool false)
  | Some _ => put_dict l (dp_before p ++ dp_after p) ;; some (vbool true)
  end.
Fixpoint new_var_ptrs (vs : list variant) : M (list ptr) :=
  match vs with
  | [] => ret []
  | v :: vs' => let! p := new_var_ptr v in let! ps := new_var_ptrs vs' in ret (p :: ps)
  end.
Definition b_dictkeys (args : list ptr) (s : sid) : M result :=
  check_args $"dict-keys" (Some 1%nat) args s ;;
  let! l := dict_arg args in
  let! d := reads (get_dict l) in
  let! ps := new_var_ptrs (map fst d) in list_result ps.
Definition b_dictclear (args : list ptr) (s : sid) : M result :=
  check_args $"dict-clean" (Some 1%nat) args s ;;
  let! l := dict_arg args in
  let! _ := reads (get_dict l) in
  put_dict l [] ;; some vundef.
Definition b_dicthaskey (args : list ptr) (s : sid) : M result :=
  check_args $"dict-contains-key" (Some 2%nat) args s ;;
  let! l := dict_arg args in
  let! key := argv 1 args in
  let! d := reads (get_dict l) in
  let! p := reads (dict_locate key d) in
  some (vbool (match dp_hit p with Some _ => true | None => false end)).
(** ContainsValue, cstypes.h 206-218. *)
Fixpoint dict_has_value (d : dictv) (v : option obj) (st : state) : out bool :=
  match d with
  | [] => Val false
  | (_, o) :: d' =>
    match o, v with
    | Some a, Some b =>
      let? e := obj_eqb a b st in if e then Val true else dict_has_value d' v st
    | _, _ => Undef UBNullDeref
    end
  end.
Definition b_dicthasvalue (args : list ptr) (s : sid) : M result :=
  check_args $"dict-contains-value" (Some 2%nat) args s ;;
  let! l := dict_arg args in
  let! value := argv 1 args in
  let! d := reads (get_dict l) in
  let! b := reads (dict_has_value d (v_val value)) in some (vbool b).

(** FileExits, FileReadAllText, FileWriteAllText: Environment.cpp 2149-2172, 102-120.
    File names end at a NUL byte when they are passed to the operating system. *)
Definition file_exists (name : str) (st : state) : out bool :=
  Val (match file_lookup (cstr name) st with Some _ => true | None => false end).
Definition read_file (name : str) (st : state) : out str :=
  Val (match file_lookup (cstr name) st with Some t => t | None => [] end).
Definition b_fileexists (args : list ptr) (s : sid) : M result :=
  check_args $"File-Exits" (Some 1%nat) args s ;;
  let! v := argv 0 args in let! n := reads (var_str v) in
  let! b := reads (file_exists n) in some (vbool b).
Definition b_fileread (args : list ptr) (s : sid) : M result :=
  check_args $"File-ReadAllText" (Some 1%nat) args s ;;
  let! v := argv 0 args in let! n := reads (var_str v) in
  let! t := reads (read_file n) in some (vstr t).
Definition b_filewrite (args : list ptr) (s : sid) : M result :=
  check_args $"File-WriteAllText" (Some 2%nat) args s ;;
  let! v := argv 0 args in let! n := reads (var_str v) in
  let! w := argv 1 args in let! t := reads (var_str w) in
  let! ok := reads (fun st => Val (e_canwrite (st_env st) (cstr n))) in
  if ok then write_file (cstr n) t ;; some (vbool true) else some (vbool false).

(** Math functions: Environment.cpp 2174-2286.  The transcendental functions of libm are
    not modelled. *)
Definition math1 (name : str) (f : f64 -> out f64) (args : list ptr) (s : sid) : M result :=
  check_args name (Some 1%nat) args s ;;
  let! v := argv 0 args in let! d := reads (to_double v) in
  let! r := lift (f d) in some (vdouble r).
Definition libm (a : f64) : out f64 := Unmod $"libm function".
(** PI, Environment.cpp 40. *)
Definition pi : f64 := f_of_frac false 3141592653589793238463 1000000000000000000000.
Definition b_pi (args : list ptr) (s : sid) : M result :=
  check_args $"Math-Pi" (Some 0%nat) args s ;; some (vdouble pi).
Definition b_pow (args : list ptr) (s : sid) : M result :=
  check_args $"Math-Pow" (Some 2%nat) args s ;;
  let! v := argv 0 args in let! d := reads (to_double v) in
  let! w := argv 1 args in let! e := reads (to_double w) in
  unmod $"libm function".

(** CurrentTickCount, Datetime: Environment.cpp 429-432, 441-461; the clock is not modelled. *)
Definition b_tickcount (args : list ptr) (s : sid) : M result :=
  check_args $"tickcount" (Some 0%nat) args s ;; unmod $"clock".
Definition b_datetime (args : list ptr) (s : sid) : M result := unmod $"clock".
