(** Vocabulary for statements about names, expressions and special forms.  Nothing here models code. *)
Require Import String Ascii List ZArith Bool Lia.
Require Import PArith FMapPositive.
From Verif Require Import Base CppString Num Token Value State Builtins Eval LispTop SpecRun SpecVal SpecList.
Import ListNotations.

(** ** Variables *)
Definition lookup (name : str) (vs : list (str * ptr)) : option ptr :=
  option_map snd (List.find (fun kv => if list_eq_dec ascii_dec name (fst kv) then true else false) vs).
Definition var_at (st : state) (s : sid) (name : str) : option ptr :=
  match scope_at st s with Some sc => lookup name (s_vars sc) | None => None end.
Definition scope_exists (st : state) (s : sid) : Prop := exists sc, scope_at st s = Some sc.

(** The nearest of the scopes around the function of scope [s] that has the name; None: there is none. *)
Inductive enclosing (st : state) (name : str) : sid -> option (sid * ptr) -> Prop :=
| en_none : forall s sc, scope_at st s = Some sc -> s_closure sc = None -> enclosing st name s None
| en_here : forall s sc c p, scope_at st s = Some sc -> s_closure sc = Some c -> (c < s)%positive -> scope_exists st c ->
    var_at st c name = Some p -> enclosing st name s (Some (c, p))
| en_up : forall s sc c r, scope_at st s = Some sc -> s_closure sc = Some c -> (c < s)%positive -> scope_exists st c ->
    var_at st c name = None -> enclosing st name c r -> enclosing st name s r.
(** The first of the imported modules that has the name. *)
Inductive in_modules (st : state) (name : str) : list (str * ptr) -> option ptr -> Prop :=
| im_none : in_modules st name [] None
| im_here : forall k i m p ms, scope_exists st m -> var_at st m name = Some p -> in_modules st name ((k, P i (OScope m)) :: ms) (Some p)
| im_next : forall k i m ms r, scope_exists st m -> var_at st m name = None -> in_modules st name ms r ->
    in_modules st name ((k, P i (OScope m)) :: ms) r.
(** What a name stands for in scope [s]: its own variable, then a global one, then one of the enclosing
    functions, then one of an imported module. *)
Inductive sees (st : state) (s : sid) (name : str) : option ptr -> Prop :=
| se_own : forall p, scope_exists st s -> var_at st s name = Some p -> sees st s name (Some p)
| se_global : forall sc p, scope_at st s = Some sc -> var_at st s name = None -> scope_exists st (s_global sc) ->
    var_at st (s_global sc) name = Some p -> sees st s name (Some p)
| se_enclosing : forall sc c p, scope_at st s = Some sc -> var_at st s name = None -> scope_exists st (s_global sc) ->
    var_at st (s_global sc) name = None -> enclosing st name s (Some (c, p)) -> sees st s name (Some p)
| se_module : forall sc i ms msc r, scope_at st s = Some sc -> var_at st s name = None -> scope_exists st (s_global sc) ->
    var_at st (s_global sc) name = None -> enclosing st name s None ->
    var_at st (s_global sc) $"###modules###" = Some (P i (OScope ms)) -> scope_at st ms = Some msc ->
    in_modules st name (s_vars msc) r -> sees st s name r.
(** The scope whose variable an assignment in scope [s] changes: its own, then one of the enclosing
    functions, then the global one. *)
Inductive assigns (st : state) (s : sid) (name : str) : sid -> Prop :=
| as_own : forall p, scope_exists st s -> var_at st s name = Some p -> assigns st s name s
| as_enclosing : forall c p, scope_exists st s -> var_at st s name = None -> enclosing st name s (Some (c, p)) -> assigns st s name c
| as_global : forall sc p, scope_at st s = Some sc -> var_at st s name = None -> enclosing st name s None ->
    scope_exists st (s_global sc) -> var_at st (s_global sc) name = Some p -> assigns st s name (s_global sc).
(** The name is bound nowhere an assignment looks. *)
Definition unassignable (st : state) (s : sid) (name : str) : Prop :=
  exists sc, scope_at st s = Some sc /\ var_at st s name = None /\ enclosing st name s None /\
    scope_exists st (s_global sc) /\ var_at st (s_global sc) name = None.

(** Two scopes with the same data apart from their variables. *)
Definition same_scope (a b : scope) : Prop :=
  s_name b = s_name a /\ s_module b = s_module a /\ s_global b = s_global a /\ s_closure b = s_closure a /\ s_prev b = s_prev a /\
  s_next b = s_next a /\ s_needlv b = s_needlv a /\ s_inret b = s_inret a /\ s_ineval b = s_ineval a /\ s_tracing b = s_tracing a /\
  s_token b = s_token a /\ s_userdata b = s_userdata a /\ s_userdoc b = s_userdoc a /\ s_tokens b = s_tokens a.
(** Variable [name] of scope [t] now holds [v] in a new object; nothing else has changed. *)
Definition var_becomes (st st' : state) (t : sid) (name : str) (v : variant) : Prop :=
  (exists i, var_at st' t name = Some (P i (OVar v))) /\
  (forall u n, (u, n) <> (t, name) -> var_at st' u n = var_at st u n) /\
  (forall u, u <> t -> scope_at st' u = scope_at st u) /\
  (forall u, scope_exists st' u <-> scope_exists st u) /\
  (forall u a b, scope_at st u = Some a -> scope_at st' u = Some b -> same_scope a b) /\
  st_vecs st' = st_vecs st /\ st_dicts st' = st_dicts st /\ st_out st' = st_out st /\ st_in st' = st_in st /\
  st_files st' = st_files st /\ st_env st' = st_env st.
(** Nothing has changed that a program could notice. *)
Definition same_data (st st' : state) : Prop :=
  st_scopes st' = st_scopes st /\ st_vecs st' = st_vecs st /\ st_dicts st' = st_dicts st /\ st_out st' = st_out st /\
  st_in st' = st_in st /\ st_files st' = st_files st /\ st_env st' = st_env st.

(** The call stack of scope [s] can be printed: the names and modules on it are fine for Format. *)
Inductive printable (st : state) : sid -> Prop :=
| pr_last : forall s sc, scope_at st s = Some sc -> s_prev sc = None -> fine_text (s_name sc) -> fine_text (s_module sc) -> printable st s
| pr_more : forall s sc c, scope_at st s = Some sc -> s_prev sc = Some c -> (c < s)%positive -> fine_text (s_name sc) ->
    fine_text (s_module sc) -> printable st c -> printable st s.

(** ** Expressions *)
(** The expression is a list with the given elements. *)
Definition expr_list (st : state) (p : ptr) (es : list ptr) : Prop :=
  (exists i l, p = P i (OList l) /\ vec_at st l = Some es) \/ (exists i v l, p = P i (OVar v) /\ is_list_at st v l es).
(** The expression is a symbol. *)
Definition expr_sym (p : ptr) (name : str) : Prop := exists i v, p = P i (OVar v) /\ is_sym v name.
(** The expression is (name args...); [tok] is the place of the name in the source. *)
Definition form (st : state) (p : ptr) (name : str) (tok : option token) (args : list ptr) : Prop :=
  exists j v, expr_list st p (P j (OVar v) :: args) /\ is_sym v name /\ v_tok v = tok.
(** The state after the place of the expression was noted in the scope, for error messages. *)
Definition noted (st : state) (s : sid) (tok : option token) : state :=
  match tok, scope_at st s with
  | Some t, Some sc => with_scopes (PositiveMap.add s (set_token (Some t) sc) (st_scopes st)) st
  | _, _ => st
  end.
(** No macro has the name. *)
Definition no_macro (st : state) (g : sid) (name : str) : Prop :=
  scope_exists st g /\
  (var_at st g $"###macros###" = None \/
   exists i ms, var_at st g $"###macros###" = Some (P i (OScope ms)) /\ scope_exists st ms /\ var_at st ms name = None).
(** In scope [s] the name stands for function [f] and for no macro; trace output is off. *)
Definition means (st : state) (s : sid) (name : str) (f : fnval) : Prop :=
  exists sc gs i v, scope_at st s = Some sc /\ scope_at st (s_global sc) = Some gs /\ s_tracing gs = false /\
    no_macro st (s_global sc) name /\ sees st s name (Some (P i (OVar v))) /\ is_fn v f.
(** ... for the function a fresh interpreter knows under the name. *)
Definition standard (st : state) (s : sid) (name : str) : Prop := exists f, builtin_fn name = Some f /\ means st s name f.
(** The outcome of an evaluation that did not give a value is handed on. *)
Definition hands_on (o o' : out result) : Prop := fails o o'.

(** Looking up the arguments of an ordinary function: symbols are replaced by what they stand for. *)
Inductive looked_up (st : state) (s : sid) : ptr -> ptr -> Prop :=
| lu_var : forall p name q, expr_sym p name -> sees st s name (Some q) -> looked_up st s p q
| lu_unknown : forall p name, expr_sym p name -> sees st s name None -> looked_up st s p p
| lu_value : forall i v, v_ty v <> TSym -> looked_up st s (P i (OVar v)) (P i (OVar v))
| lu_list : forall i l, looked_up st s (P i (OList l)) (P i (OList l)).
(** An argument is neither an expression to evaluate nor the result of unquote-splicing. *)
Definition settled (v : variant) : Prop := v_unq v <> UnqSplice \/ (v_ty v <> TList /\ v_ty v <> TNil).
(** The arguments of a special form as the parser makes them. *)
Definition plain (p : ptr) : Prop := match p with PNull => False | P _ (OVar v) => settled v | P _ _ => True end.
(** Evaluating the arguments of an ordinary function one after the other, from left to right. *)
Inductive evaluated (s : sid) : list ptr -> state -> list ptr -> state -> Prop :=
| ev_nil : forall st, evaluated s [] st [] st
| ev_value : forall i v ps st qs st', settled v -> evaluated s ps st qs st' ->
    evaluated s (P i (OVar v) :: ps) st (P i (OVar v) :: qs) st'
| ev_list : forall i l ps st v st1 st2 q qs st3, evals (P i (OList l)) s st (Val (Some v)) st1 -> settled v -> boxed v st1 q st2 ->
    evaluated s ps st2 qs st3 -> evaluated s (P i (OList l) :: ps) st (q :: qs) st3.
(** ... until one of them fails. *)
Inductive evaluation_fails (s : sid) : list ptr -> state -> out result -> state -> Prop :=
| ef_here : forall i l ps st o o' st', evals (P i (OList l)) s st o st' -> fails o o' -> evaluation_fails s (P i (OList l) :: ps) st o' st'
| ef_value : forall i v ps st o st', settled v -> evaluation_fails s ps st o st' -> evaluation_fails s (P i (OVar v) :: ps) st o st'
| ef_list : forall i l ps st v st1 q st2 o st3, evals (P i (OList l)) s st (Val (Some v)) st1 -> settled v -> boxed v st1 q st2 ->
    evaluation_fails s ps st2 o st3 -> evaluation_fails s (P i (OList l) :: ps) st o st3.

(** ** Forms that evaluate several expressions *)
(** (and ...): from left to right up to the first false operand. *)
Inductive conjunction (s : sid) : list ptr -> state -> bool -> state -> Prop :=
| cj_all : forall st, conjunction s [] st true st
| cj_false : forall p ps st v st', evals p s st (Val (Some v)) st' -> is_bool v false -> conjunction s (p :: ps) st false st'
| cj_true : forall p ps st v st1 b st', evals p s st (Val (Some v)) st1 -> is_bool v true -> conjunction s ps st1 b st' ->
    conjunction s (p :: ps) st b st'.
(** ... until one of them is no boolean or fails. *)
Inductive conjunction_fails (s : sid) : list ptr -> state -> out result -> state -> Prop :=
| cf_here : forall p ps st o o' st', evals p s st o st' -> hands_on o o' -> conjunction_fails s (p :: ps) st o' st'
| cf_next : forall p ps st v st1 o st', evals p s st (Val (Some v)) st1 -> is_bool v true -> conjunction_fails s ps st1 o st' ->
    conjunction_fails s (p :: ps) st o st'.
(** All operands are evaluated from left to right and are booleans. *)
Inductive booleans (s : sid) : list ptr -> state -> state -> Prop :=
| bo_nil : forall st, booleans s [] st st
| bo_cons : forall p ps st v b st1 st', evals p s st (Val (Some v)) st1 -> is_bool v b -> booleans s ps st1 st' -> booleans s (p :: ps) st st'.
(** What (or ...) really does: a first operand that is false decides; after a first operand that is true all
    others are evaluated and ignored. *)
Inductive first_decides (s : sid) : list ptr -> state -> bool -> state -> Prop :=
| fi_none : forall st, first_decides s [] st false st
| fi_false : forall p ps st v st', evals p s st (Val (Some v)) st' -> is_bool v false -> first_decides s (p :: ps) st false st'
| fi_true : forall p ps st v st1 st', evals p s st (Val (Some v)) st1 -> is_bool v true -> booleans s ps st1 st' ->
    first_decides s (p :: ps) st true st'.
(** Scope [s] is being left by return. *)
Definition leaving (st : state) (s : sid) (b : bool) : Prop := exists sc, scope_at st s = Some sc /\ s_inret sc = b.
(** Booleans and numbers as conditions of while. *)
Inductive truth : variant -> bool -> Prop :=
| tr_bool : forall v b, is_bool v b -> truth v b
| tr_int : forall v z, is_int v z -> truth v (negb (Z.eqb z 0))
| tr_dbl : forall v d, is_dbl v d -> truth v (fltb (f_of_frac false 1 100000000) (fabs d)).
(** The rounds of (while c b); [r] is the result so far. *)
Inductive rounds_of (c b : ptr) (s : sid) : nat -> result -> state -> result -> state -> Prop :=
| ro_end : forall r st v st', evals c s st (Val (Some v)) st' -> truth v false -> rounds_of c b s 0 r st r st'
| ro_more : forall n r st v st1 r1 st2 r2 st3, evals c s st (Val (Some v)) st1 -> truth v true -> evals b s st1 (Val r1) st2 ->
    leaving st2 s false -> rounds_of c b s n r1 st2 r2 st3 -> rounds_of c b s (S n) r st r2 st3
| ro_return : forall r st v st1 r1 st2, evals c s st (Val (Some v)) st1 -> truth v true -> evals b s st1 (Val r1) st2 ->
    leaving st2 s true -> rounds_of c b s 1 r st r1 st2.
(** The statements of (do ...), one after the other, until one of them returns from the function. *)
Inductive in_sequence (s : sid) : list ptr -> result -> state -> result -> state -> Prop :=
| sq_end : forall r st, in_sequence s [] r st r st
| sq_next : forall i l ps r st r1 st1 r2 st2, evals (P i (OList l)) s st (Val r1) st1 -> leaving st1 s false ->
    in_sequence s ps r1 st1 r2 st2 -> in_sequence s (P i (OList l) :: ps) r st r2 st2
| sq_return : forall i l ps r st r1 st1, evals (P i (OList l)) s st (Val r1) st1 -> leaving st1 s true ->
    in_sequence s (P i (OList l) :: ps) r st r1 st1.

(** ** Calls of functions written in Lisp *)
(** The parameter list. *)
Definition parameters (st : state) (p : ptr) (names : list str) : Prop := exists fs, expr_list st p fs /\ Forall2 expr_sym fs names.
(** The state in which the body of a function is evaluated: [c] is a new scope below the scope [ds] in which
    the function was written; its variables are the parameters (missing arguments are nil), the list of all
    arguments and the list of the surplus ones.  Apart from that only the link from the caller's scope [s] to
    the new scope is set. *)
Definition starts_call (st st1 : state) (s c ds : sid) (name : str) (names : list str) (args : list ptr) : Prop :=
  scope_at st c = None /\
  (exists sc csc fill, scope_at st s = Some sc /\ scope_at st1 s = Some (set_next (Some c) sc) /\ scope_at st1 c = Some csc /\
     s_name csc = name /\ s_global csc = s_global sc /\ s_closure csc = Some ds /\ s_prev csc = Some s /\ s_next csc = None /\
     (s_inret csc = false /\ forall dsc, scope_at st ds = Some dsc -> s_needlv csc = s_needlv dsc) /\
     length fill = (length names - length args)%nat /\ Forall (fun p => exists i, p = P i (OVar vnil)) fill /\
     (forall k n a, nth_error names k = Some n -> nth_error (args ++ fill) k = Some a -> ~ In n (skipn (S k) names) ->
        n <> $"###args###" -> n <> $"_additionalArgs" -> var_at st1 c n = Some a) /\
     (exists i l, var_at st1 c $"###args###" = Some (P i (OList l)) /\ vec_at st1 l = Some (args ++ fill)) /\
     ((length names < length args)%nat -> exists i v l, var_at st1 c $"_additionalArgs" = Some (P i (OVar v)) /\ is_list_at st1 v l (skipn (length names) args)) /\
     (forall n, ~ In n names -> n <> $"###args###" -> n <> $"_additionalArgs" -> var_at st1 c n = None)) /\
  (forall u, u <> c -> u <> s -> scope_at st1 u = scope_at st u) /\
  (forall l es, vec_at st l = Some es -> vec_at st1 l = Some es) /\ st_dicts st1 = st_dicts st /\
  st_out st1 = st_out st /\ st_in st1 = st_in st /\ st_files st1 = st_files st /\ st_env st1 = st_env st.
(** After the call the two scopes are unlinked again. *)
Definition unlinked (st st' : state) (s c : sid) : Prop :=
  exists sc csc, scope_at st s = Some sc /\ scope_at st c = Some csc /\
    st' = with_scopes (PositiveMap.add s (set_next None sc) (PositiveMap.add c (set_prev None csc) (st_scopes st))) st.
(** An error that leaves a function loses its position. *)
Definition handed_up (o : out result) : out result := match o with Throw (ELisp m _) => Throw (ELispBase m) | _ => o end.

(** ** Pieces of code used by the examples *)
Definition sym_ (i : positive) (name : str) : ptr := P i (OVar (mkv TSym (OString name))).
Definition int_ (i : positive) (z : Z) : ptr := P i (OVar (vint z)).
Definition bool_ (i : positive) (b : bool) : ptr := P i (OVar (vbool b)).
Definition code_ (i l : positive) : ptr := P i (OList l).
Definition with_code (ls : list (loc * list ptr)) (st : state) : state :=
  with_vecs (fold_left (fun m kv => PositiveMap.add (fst kv) (snd kv) m) ls (st_vecs st)) st.
(** After (def i 0), with the code of some expressions in the heap. *)
Definition code_st : state := with_code
  [(71%positive, [sym_ 71 $"if"; bool_ 72 true; int_ 73 1; code_ 74 74]);
   (72%positive, [sym_ 71 $"and"; bool_ 72 true; bool_ 73 false; code_ 74 74]);
   (73%positive, [sym_ 71 $"or"; bool_ 72 false; bool_ 73 true]);
   (74%positive, [sym_ 71 $"nofunction"]);
   (75%positive, [sym_ 71 $"while"; code_ 72 76; code_ 73 77]);
   (76%positive, [sym_ 71 $"<"; sym_ 72 $"i"; int_ 73 3]);
   (77%positive, [sym_ 71 $"setf"; sym_ 72 $"i"; code_ 73 78]);
   (78%positive, [sym_ 71 $"+"; sym_ 72 $"i"; int_ 73 1]);
   (79%positive, [sym_ 71 $"do"; code_ 72 77; code_ 73 77]);
   (80%positive, [sym_ 71 $"def"; sym_ 72 $"i"; int_ 73 3]);
   (81%positive, [sym_ 71 $"gdef"; sym_ 72 $"i"; int_ 73 3]);
   (82%positive, [sym_ 71 $"setf"; sym_ 72 $"unbound"; int_ 73 3])]
  (snd (eval_script 30 false false $"(def i 0)" [] fresh)).
