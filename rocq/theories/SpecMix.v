(** Vocabulary for operands of mixed kinds, other names of functions and small functions.  Nothing here models code. *)
Require Import String Ascii List ZArith Bool Lia.
Require Import PArith FMapPositive.
From Verif Require Import Base CppString Num Token Value State Builtins Eval LispTop SpecLex SpecRun SpecVal SpecNum SpecList SpecForm SpecIo.
Import ListNotations.

(** ** Operands *)
Definition no_digit (t : str) : Prop := match t with c :: _ => is_digit c = false | [] => True end.
(** The integer at the beginning of a text, after blanks; 0 if there is none. *)
Inductive leading_int : str -> Z -> Prop :=
| li_some : forall ws w rest z, forallb is_space ws = true -> int_text w z -> no_digit rest -> leading_int (ws ++ w ++ rest) z
| li_empty : forall ws, forallb is_space ws = true -> leading_int ws 0
| li_none : forall ws c rest, forallb is_space ws = true -> is_space c = false -> is_digit c = false -> (c = "+"%char \/ c = "-"%char -> no_digit rest) ->
    leading_int (ws ++ c :: rest) 0.
(** The integer an operand stands for next to an integer. *)
Inductive as_int : variant -> Z -> Prop :=
| ai_int : forall v z, is_int v z -> as_int v z
| ai_bool : forall v (b : bool), is_bool v b -> as_int v (if b then 1 else 0)
| ai_text : forall v t z, is_str v t -> leading_int t z -> fits z -> as_int v z.
(** The text an operand stands for next to a text under +: booleans are not written as str writes them. *)
Inductive as_text : variant -> str -> Prop :=
| at_text : forall v t, is_str v t -> as_text v t
| at_sym : forall v t, is_sym v t -> as_text v t
| at_int : forall v z, is_int v z -> as_text v (z_to_string z)
| at_bool : forall v (b : bool), is_bool v b -> as_text v (if b then $"true" else $"false").
Definition text_args (args : list ptr) (ts : list str) : Prop := Forall2 (fun p t => exists i v, p = P i (OVar v) /\ as_text v t) args ts.
(** The sum of the numbers before the first text. *)
Definition front_text (zs : list Z) : str := match zs with [] => [] | z :: zs' => z_to_string (fold_left Z.add zs' z) end.
Definition front_fits (zs : list Z) : Prop := match zs with [] => True | z :: zs' => all_fit Z.add z zs' end.
(** The letter an error message uses for a kind of value: the character with that number. *)
Definition kind_code (t : ltype) : nat :=
  match t with
  | TUndef => 0 | TNil => 1 | TBool => 2 | TInt => 3 | TDouble => 4 | TString => 5 | TList => 6 | TFun => 7 | TSym => 8 | TNative => 9 | TLValue => 11 | TError => 231
  end%nat.
Definition kind_letter (v : variant) : str := [ascii_of_nat (kind_code (v_ty v))].
Definition refusal (op : str) (v w : variant) : str := $"no " ++ op ++ $" operator for types " ++ kind_letter v ++ $" and " ++ kind_letter w.
Definition one_int (v w : variant) : Prop := (exists z, is_int v z) \/ (exists z, is_int w z).
Definition mixed_operation (name : str) (f : Z -> Z -> Z) : Prop := (name = $"-" /\ f = Z.sub) \/ (name = $"*" /\ f = Z.mul).
Definition no_number (v : variant) : Prop := v_ty v <> TInt /\ v_ty v <> TDouble.
Definition list_kind (v : variant) : Prop := v_ty v = TList \/ v_ty v = TNil.
(** An error carrying the position of an operand. *)
Definition error_at (v : variant) (m : str) : exn :=
  ELisp m (ErrInfo (tok_line (v_tok v)) (tok_start (v_tok v)) (tok_stop (v_tok v)) $"???" $"???").
(** Kinds of values that == compares only with their own kind or not at all. *)
Definition plain_kind (v : variant) : Prop := In (v_ty v) [TBool; TList; TFun; TNative; TLValue; TError].

(** ** Other names *)
(** Pairs of names of the same function. *)
Definition aliases : list (str * str) :=
  [($"string", $"+"); ($"add", $"+"); ($"sub", $"-"); ($"mul", $"*"); ($"div", $"/"); ($"mod", $"%"); ($"equal", $"=="); ($"=", $"==");
   ($"!", $"not"); ($"first", $"car"); ($"rest", $"cdr"); ($"&&", $"and"); ($"||", $"or"); ($"define-macro", $"define-macro-eval");
   ($"begin", $"do"); ($"lambda", $"fn")].

(** ** Numbers of arguments *)
(** Functions with a fixed number of arguments: name, name in the error message, number. *)
Definition fixed_arity : list (str * (str * nat)) :=
  [($"delvar", ($"delvar", 1)); ($"need-l-value", ($"need-l-value", 0)); ($"tickcount", ($"tickcount", 0)); ($"type", ($"type", 1)); ($"typestr", ($"typestr", 1));
   ($"flush", ($"flush", 0)); ($"readline", ($"readline", 0)); ($"parse-integer", ($"parse-integer", 1)); ($"parse-float", ($"parse-float", 1));
   ($"int", ($"int", 1)); ($"float", ($"float", 1)); ($"slice", ($"slice", 3)); ($"replace", ($"replace", 3)); ($"trim", ($"trim", 1));
   ($"lower-case", ($"lower-case", 1)); ($"upper-case", ($"upper-case", 1)); ($">>", ($"right-shift", 2)); ($"<<", ($"lef-shift", 2)); ($"|", ($"lef-shift", 2));
   ($"&", ($"lef-shift", 2)); ($"^", ($"lef-shift", 2)); ($"~", ($"binary-not", 1)); ($"<", ($"<", 2)); ($">", ($">", 2)); ($"<=", ($"<=", 2)); ($">=", ($">=", 2));
   ($"==", ($"==", 2)); ($"!=", ($"!=", 2)); ($"not", ($"not", 1)); ($"map", ($"map", 2)); ($"reduce", ($"reduce", 3)); ($"len", ($"len", 1));
   ($"car", ($"first", 1)); ($"last", ($"last", 1)); ($"cdr", ($"rest", 1)); ($"nth", ($"nth", 2)); ($"reverse", ($"reverse", 1)); ($"rval", ($"rval", 1));
   ($"sym", ($"sym", 1)); ($"str", ($"str", 1)); ($"argscount", ($"argscount", 0)); ($"args", ($"args", 0)); ($"arg", ($"arg", 1)); ($"apply", ($"apply", 2));
   ($"eval", ($"eval", 1)); ($"evalstr", ($"evalstr", 1)); ($"make-dict", ($"make-dict", 0)); ($"dict-set", ($"dict-set", 3)); ($"dict-get", ($"dict-get", 2));
   ($"dict-remove", ($"dict-remove", 2)); ($"dict-keys", ($"dict-keys", 1)); ($"dict-clear", ($"dict-clean", 1)); ($"dict-contains-key", ($"dict-contains-key", 2));
   ($"dict-contains-value", ($"dict-contains-value", 2)); ($"def", ($"def", 2)); ($"gdef", ($"gdef", 2)); ($"setf", ($"setf", 2));
   ($"define-macro-eval", ($"define-macro-eval", 3)); ($"define-macro-expand", ($"define-macro-expand", 3)); ($"quote", ($"quote", 1));
   ($"quasiquote", ($"quasiquote", 1)); ($"_unquote", ($"_unquote", 1)); ($"_unquotesplicing", ($"_unquotesplicing", 1)); ($"while", ($"while", 2));
   ($"defn", ($"def", 3)); ($"gdefn", ($"gdef", 3)); ($"File-Exists", ($"File-Exits", 1)); ($"File-ReadAllText", ($"File-ReadAllText", 1));
   ($"File-WriteAllText", ($"File-WriteAllText", 2)); ($"Math-Pi", ($"Math-Pi", 0)); ($"Math-Sin", ($"Math-Sin", 1)); ($"Math-Sinh", ($"Math-Sinh", 1));
   ($"Math-Asin", ($"Math-Asin", 1)); ($"Math-Cos", ($"Math-Cos", 1)); ($"Math-Cosh", ($"Math-Cosh", 1)); ($"Math-Acos", ($"Math-Acos", 1)); ($"Math-Tan", ($"Math-Tan", 1));
   ($"Math-Tanh", ($"Math-Tanh", 1)); ($"Math-Atan", ($"Math-Atan", 1)); ($"Math-Exp", ($"Math-Exp", 1)); ($"Math-Log", ($"Math-Log", 1)); ($"Math-Log10", ($"Math-Log10", 1));
   ($"Math-Sqrt", ($"Math-Sqrt", 1)); ($"Math-Round", ($"Math-Round", 1)); ($"Math-Truncate", ($"Math-Truncated", 1)); ($"Math-Abs", ($"Math-Abs", 1));
   ($"Math-Floor", ($"Math-Floor", 1)); ($"Math-Ceiling", ($"Math-Ceiling", 1)); ($"Math-Pow", ($"Math-Pow", 2))]%nat.
Definition ranged_arity : list (str * (nat * nat)) := [($"format", (1, 6)); ($"search", (2, 4)); ($"push", (2, 3)); ($"pop", (1, 2))]%nat.
Definition count_text (n : nat) : str := z_to_string (Z.of_nat n).
Definition miscounted (shown : str) (has : nat) (expected : str) : str :=
  $"Bad argument count in " ++ shown ++ $", has " ++ count_text has ++ $" expected " ++ expected.

(** ** The arguments of a call *)
(** The function running in scope [c] was called with these arguments. *)
Definition in_call (st : state) (c : sid) (es : list ptr) : Prop :=
  exists i l, var_at st c $"###args###" = Some (P i (OList l)) /\ vec_at st l = Some es.
(** The place of the first occurrence, counted from 0; -1 if there is none. *)
Definition first_place (t : str) (ts : list str) (z : Z) : Prop :=
  (z = (-1)%Z /\ ~ In t ts) \/ (exists n, z = Z.of_nat n /\ nth_error ts n = Some t /\ ~ In t (firstn n ts)).

(** ** Small functions *)
Definition kind_name (v : variant) (t : str) : Prop :=
  match v_ty v with
  | TUndef => t = $"Undefined" | TNil => t = $"Nil" | TBool => t = $"Bool" | TInt => t = $"Int" | TDouble => t = $"Double" | TString => t = $"String"
  | TList => t = $"List" | TFun => t = $"Function" | TSym => t = $"Symbol" | TError => t = $"Error" | TLValue => t = $"unknown_type"
  | TNative => (exists l, v_val v = Some (ODict l)) /\ t = $"NativeDictionary"
  end.
(** The number type gives for a kind of value. *)
Definition kind_number (v : variant) : Z := if ltype_eqb (v_ty v) TError then 999%Z else Z.of_nat (kind_code (v_ty v)).
(** Letters a-z and A-Z exchanged, everything else as it is. *)
Definition upper_of (c d : ascii) : Prop :=
  let n := nat_of_ascii c in if (97 <=? n)%nat && (n <=? 122)%nat then nat_of_ascii d = (n - 32)%nat else d = c.
Definition lower_of (c d : ascii) : Prop :=
  let n := nat_of_ascii c in if (65 <=? n)%nat && (n <=? 90)%nat then nat_of_ascii d = (n + 32)%nat else d = c.
Definition seven_bit (t : str) : Prop := Forall (fun c => nat_of_ascii c < 128)%nat t.
(** Variable [name] of scope [t] is gone; nothing else has changed. *)
Definition var_gone (st st' : state) (t : sid) (name : str) : Prop :=
  var_at st' t name = None /\
  (forall u n, (u, n) <> (t, name) -> var_at st' u n = var_at st u n) /\
  (forall u, u <> t -> scope_at st' u = scope_at st u) /\
  (forall u, scope_exists st' u <-> scope_exists st u) /\
  (forall u a b, scope_at st u = Some a -> scope_at st' u = Some b -> same_scope a b) /\
  st_vecs st' = st_vecs st /\ st_dicts st' = st_dicts st /\ st_out st' = st_out st /\ st_in st' = st_in st /\
  st_files st' = st_files st /\ st_env st' = st_env st.
