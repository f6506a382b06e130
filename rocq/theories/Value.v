(** Runtime values: csobject.h/.cpp (object), Variant.h/.cpp (LispVariant),
    cstypes.h (LispFunctionWrapper) and the macro classes of Environment.h. *)
Require Import String Ascii List ZArith Bool Lia.
Require Import PArith.
From Verif Require Import Base CppString Num Token.
Import ListNotations.

(** LispType, csobject.h 62-77. *)
Inductive ltype :=
| TUndef | TNil | TBool | TInt | TDouble | TString | TList | TFun | TSym | TNative | TLValue | TError.

(** The enumeration codes, csobject.h 64-76. *)
Definition ltype_code (t : ltype) : Z :=
  match t with
  | TUndef => 0 | TNil => 1 | TBool => 2 | TInt => 3 | TDouble => 4 | TString => 5
  | TList => 6 | TFun => 7 | TSym => 8 | TNative => 9 | TLValue => 11 | TError => 999
  end.

Definition ltype_eqb (a b : ltype) : bool := (ltype_code a =? ltype_code b)%Z.

(** LispUnQuoteModus, Variant.h 51-56. *)
Inductive unqm := UnqNone | UnqUnquote | UnqSplice.

(** Addresses: the pointers of csobject.h 106-125.  [loc] names a vector or dictionary object, [sid] a LispScope. *)
Definition loc := positive.
Definition sid := positive.

(** The functions registered by CreateDefaultScope, Environment.cpp 2298-2500; one
    constructor per C++ function (several table entries share a function). *)
Inductive builtin :=
| BFuel | BVersion | BCopyright | BHelp | BDoc | BSearchDoc | BHtmlDoc | BBreak
| BVars | BDelVar | BNeedLValue | BTracePrint | BGetTracePrint | BImport | BTickCount | BSleep
| BDateTime | BPlatform | BNop | BReturn | BPrint | BPrintLn | BFormat | BFlush | BReadLine
| BParseInteger | BParseFloat | BToInt | BToFloat | BSearch | BSlice | BReplace | BTrim
| BLower | BUpper | BNot | BEq | BNe | BLt | BGt | BLe | BGe | BAdd | BSub | BMul | BDiv | BMod
| BShl | BShr | BBitAnd | BBitOr | BBitXor | BBitNot
| BList | BMap | BReduce | BCons | BLength | BFirst | BLast | BRest | BNth | BPush | BPop
| BAppend | BReverse | BRValue | BSym | BToString | BArgsCount | BArgs | BArg | BApply | BEval
| BEvalStr | BType | BTypeStr
| BMakeDict | BDictSet | BDictGet | BDictRemove | BDictKeys | BDictClear | BDictContainsKey
| BDictContainsValue
| BMathPi | BMathSin | BMathSinh | BMathAsin | BMathCos | BMathCosh | BMathAcos | BMathTan
| BMathTanh | BMathAtan | BMathExp | BMathLog | BMathLog10 | BMathSqrt | BMathRound
| BMathTrunc | BMathAbs | BMathFloor | BMathCeil | BMathPow
| BFileExists | BFileRead | BFileWrite
| BAnd | BOr | BDef | BGDef | BSetf | BDefMacroEval | BDefMacroExpand | BQuote | BQuasiquote
| BUnquote | BUnquoteSplicing | BIf | BWhile | BDo | BFn | BDefn | BGDefn.

(** object (csobject.h 106-327) together with the classes it stores.
    - A list object owns a vector; vectors are mutable and reached through
      shared_ptr, so [OList l] holds the address of the vector.  Likewise for
      dictionaries and scopes.  Copying the C++ object copies the vector, see
      obj_copy in State.v.
    - Bool, Int, Double, String, function and macro objects are never changed after
      construction (object has no assignment), so the value stands for them.
    - [OMacro true] is LispMacroRuntimeEvaluate, [OMacro false]
      LispMacroCompileTimeExpand (Environment.h 48-88): formals and expression.
    - [OLValue] is the std::function built by first, last and nth.
    - The kinds __Nil, __Function, __Symbol, __NativeObject, __LispToken,
      __IEnumerableOfObject, __VoidPtr and __Error are never constructed.

    [ptr] is std::shared_ptr<object>.  The tag identifies the object pointed to:
    the comparison of vectors (csobject.cpp 156) compares pointers.

    [variant] is LispVariant (Variant.h 107-...): Type, Value, IsUnQuoted, Token.
    CachedFunction (Variant.h 125) is never set and left out. *)
Inductive obj :=
| OUndef
| OBool (b : bool)
| OInt (z : Z)
| ODouble (f : f64)
| OString (s : str)
| OList (l : loc)
| ODict (l : loc)
| OFun (f : fnval)
| OLValue (lv : lval)
| OScope (s : sid)
| OMacro (runtime : bool) (formals body : list ptr)
| OVar (v : variant)
with variant :=
| MkVar (ty : ltype) (val : option obj) (unq : unqm) (tok : option token)
with ptr :=
| PNull
| P (id : positive) (o : obj)
with fnval :=
| MkFn (c : code) (sig doc : str) (bi sp ex : bool) (md : str)
with code :=
| CBuiltin (b : builtin)
| CClosure (name modname : str) (args : list ptr) (sc : sid)
with lval :=
| LvFirst (p : ptr)
| LvLast (p : ptr)
| LvNth (p : ptr) (i : Z).

Definition v_ty (v : variant) : ltype := match v with MkVar t _ _ _ => t end.
Definition v_val (v : variant) : option obj := match v with MkVar _ o _ _ => o end.
Definition v_unq (v : variant) : unqm := match v with MkVar _ _ u _ => u end.
Definition v_tok (v : variant) : option token := match v with MkVar _ _ _ t => t end.

(** LispFunctionWrapper, cstypes.h 340-395: the code, Signature, Documentation,
    IsBuiltin, IsSpecialForm, IsEvalInExpand, ModuleName. *)
Definition fn_code (f : fnval) : code := match f with MkFn c _ _ _ _ _ _ => c end.
Definition fn_sig (f : fnval) : str := match f with MkFn _ s _ _ _ _ _ => s end.
Definition fn_doc (f : fnval) : str := match f with MkFn _ _ d _ _ _ _ => d end.
Definition fn_bi (f : fnval) : bool := match f with MkFn _ _ _ b _ _ _ => b end.
Definition fn_sp (f : fnval) : bool := match f with MkFn _ _ _ _ s _ _ => s end.
Definition fn_ex (f : fnval) : bool := match f with MkFn _ _ _ _ _ e _ => e end.
Definition fn_mod (f : fnval) : str := match f with MkFn _ _ _ _ _ _ m => m end.

(** ConvertObjectTypeToVariantType, Variant.h 58-102. *)
Definition type_of_obj (o : obj) : ltype :=
  match o with
  | OUndef => TUndef | OBool _ => TBool | OInt _ => TInt | ODouble _ => TDouble
  | OString _ => TString | OList _ => TList | OFun _ => TFun
  | ODict _ | OLValue _ | OScope _ | OMacro _ _ _ => TUndef
  | OVar _ => TUndef
  end.

(** LispVariant(LispType, object), Variant.cpp 44-50. *)
Definition mkv (t : ltype) (o : obj) : variant := MkVar t (Some o) UnqNone None.

(** LispVariant(LispType::_Nil), also g_Nil (csobject.cpp 413): no Value. *)
Definition vnil : variant := MkVar TNil None UnqNone None.
(** LispVariant(), Variant.h 228. *)
Definition vundef : variant := MkVar TUndef None UnqNone None.

(** LispVariant(shared_ptr<object>) for a non-null pointer, Variant.cpp 39-77. *)
Definition var_of_obj (o : obj) : variant :=
  match o with OVar v => v | _ => mkv (type_of_obj o) o end.

Definition vint (z : Z) : variant := mkv TInt (OInt z).
Definition vbool (b : bool) : variant := mkv TBool (OBool b).
Definition vdouble (f : f64) : variant := mkv TDouble (ODouble f).
Definition vstr (s : str) : variant := mkv TString (OString s).

(** LispVariant(shared_ptr<object>), Variant.cpp 39-77, of a pointer that may be null. *)
Definition var_of_ptr (p : ptr) : out variant :=
  match p with PNull => Undef UBNullDeref | P _ o => Val (var_of_obj o) end.

(** ToLispVariantRef, csobject.cpp 415-423: g_Nil for anything but a variant. *)
Definition vref_obj (o : obj) : variant := match o with OVar v => v | _ => vnil end.
Definition vref (p : ptr) : out variant :=
  match p with PNull => Undef UBNullDeref | P _ o => Val (vref_obj o) end.

(** The object a shared_ptr (csobject.h 106) leads to. *)
Definition deref (p : ptr) : out obj :=
  match p with PNull => Undef UBNullDeref | P _ o => Val o end.

(** LispToken::Value, Token.h 71-110. *)
Definition obj_of_tokval (v : tokval) : obj :=
  match v with
  | TvStr s => OString s | TvInt z => OInt z | TvDouble f => ODouble f | TvBool b => OBool b
  end.

(** LispVariant(token), Variant.cpp 87-99. *)
Definition var_of_token (t : token) : variant :=
  let o := obj_of_tokval (tk_val t) in
  let ty := match tk_type t with TkNil => TNil | TkSymbol => TSym | _ => type_of_obj o end in
  MkVar ty (Some o) UnqNone (Some t).

(** The Is... tests of Variant.h 137-200. *)
Definition is_nil (v : variant) : bool := ltype_eqb (v_ty v) TNil.
Definition is_list (v : variant) : bool := ltype_eqb (v_ty v) TList || ltype_eqb (v_ty v) TNil.
Definition is_ty (t : ltype) (v : variant) : bool := ltype_eqb (v_ty v) t.

(** object::IsList, csobject.h 257-260, for a pointer. *)
Definition obj_is_list (o : obj) : bool := match o with OList _ => true | _ => false end.
Definition obj_is_var (o : obj) : bool := match o with OVar _ => true | _ => false end.

(** LispInterpreter::IsSymbol, Interpreter.cpp 395-403. *)
Definition obj_is_sym (o : obj) : bool :=
  match o with OVar v => is_ty TSym v | _ => false end.

(** object::GetTypeName, csobject.cpp 278-320. *)
Definition type_name (o : obj) : str :=
  match o with
  | OUndef => $"Undefined" | OBool _ => $"Bool" | OInt _ => $"Int" | ODouble _ => $"Double"
  | OString _ => $"String" | OList _ => $"List" | OVar _ => $"LispVariant"
  | OFun _ => $"LispFunctionWrapper" | OScope _ => $"LispScope"
  | ODict _ | OLValue _ | OMacro _ _ _ => $"<unknown>"
  end.

(** LispVariant::TypeString, Variant.cpp 107-144. *)
Definition type_string (v : variant) : out str :=
  match v_ty v with
  | TUndef => Val $"Undefined" | TNil => Val $"Nil" | TBool => Val $"Bool" | TInt => Val $"Int"
  | TDouble => Val $"Double" | TString => Val $"String" | TList => Val $"List"
  | TFun => Val $"Function" | TSym => Val $"Symbol" | TError => Val $"Error"
  | TNative =>
    match v_val v with
    | None => Undef UBTag
    | Some (ODict _) => Val $"NativeDictionary"
    | Some o => Val ($"NativeObject<" ++ type_name o ++ $">")
    end
  | TLValue => Val $"unknown_type"
  end.

(** AddTokenInfos, Exception.cpp 68-74. *)
Definition tok_line (t : option token) : Z := match t with Some t => wrap32 (tk_line t) | None => -1 end.
Definition tok_start (t : option token) : Z := match t with Some t => wrap32 (tk_start t) | None => -1 end.
Definition tok_stop (t : option token) : Z := match t with Some t => wrap32 (tk_stop t) | None => -1 end.

(** LispException(text, scope) with scope = 0, then AddTokenInfos(token):
    Exception.cpp 31-50, Variant.cpp 562-574. *)
Definition exn_tok (msg : str) (t : option token) : exn :=
  ELisp msg (ErrInfo (tok_line t) (tok_start t) (tok_stop t) $"???" $"???").
