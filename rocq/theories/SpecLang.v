(** A small imperative language with recursive functions, its meaning, and how its programs look as expressions
    of the interpreter.  Nothing here models code. *)
Require Import String Ascii List ZArith Bool Lia.
Require Import PArith FMapPositive.
From Verif Require Import Base CppString Num Token Value State Builtins Eval LispTop SpecLex SpecParse SpecRun SpecVal SpecNum SpecList SpecForm SpecIo.
Import ListNotations.

(** ** Programs *)
(** [NoV] is the undefined value; [Nothing] is the value of an if without a second branch whose condition is false. *)
Inductive value := NumV (z : Z) | BoolV (b : bool) | TextV (t : str) | ListV (vs : list value) | NoV | Nothing.
Inductive op := Add | Sub | Mul | Div | Rem | Less | AtMost | More | AtLeast | Same | Other.
Inductive exp :=
| Const (v : value)
| Name (x : str)
| Prim (n : str) (es : list exp)
| Both (a b : exp)
| Cond (c a b : exp)
| Call (f : str) (es : list exp)
| Each (f : str) (e : exp)
| Gather (f : str) (e e0 : exp).
Inductive stm :=
| Exp (e : exp)
| Return (e : exp)
| Def (x : str) (e : exp)
| Set_ (x : str) (e : exp)
| Block (ss : list stm)
| If (c : exp) (a b : stm)
| When (c : exp) (a : stm)
| While (c : exp) (b : stm)
| Print (e : exp).
(** A function has parameters and a body. *)
Definition funs := str -> option (list str * stm).
Definition store := str -> option value.

(** ** What programs mean *)
Definition op_name (o : op) : str :=
  match o with
  | Add => $"+" | Sub => $"-" | Mul => $"*" | Div => $"/" | Rem => $"%"
  | Less => $"<" | AtMost => $"<=" | More => $">" | AtLeast => $">=" | Same => $"==" | Other => $"!="
  end.
(** Results of arithmetic must fit into 32 bits; division rounds towards zero. *)
Inductive computes : op -> Z -> Z -> value -> Prop :=
| cm_add : forall a b, fits (a + b) -> computes Add a b (NumV (a + b))
| cm_sub : forall a b, fits (a - b) -> computes Sub a b (NumV (a - b))
| cm_mul : forall a b, fits (a * b) -> computes Mul a b (NumV (a * b))
| cm_div : forall a b q r, divides_to a b q r -> fits q -> computes Div a b (NumV q)
| cm_rem : forall a b q r, divides_to a b q r -> fits q -> computes Rem a b (NumV r)
| cm_less : forall a b, computes Less a b (BoolV (Z.ltb a b))
| cm_atmost : forall a b, computes AtMost a b (BoolV (Z.leb a b))
| cm_more : forall a b, computes More a b (BoolV (Z.ltb b a))
| cm_atleast : forall a b, computes AtLeast a b (BoolV (Z.leb b a))
| cm_same : forall a b, computes Same a b (BoolV (Z.eqb a b))
| cm_other : forall a b, computes Other a b (BoolV (negb (Z.eqb a b))).
(** The text of a value inside a list; the decimal text of a number is described by C14. *)
Fixpoint spaced (ts : list str) : str := match ts with [] => [] | [t] => t | t :: ts' => t ++ $" " ++ spaced ts' end.
Fixpoint inner_text (v : value) : str :=
  match v with
  | NumV z => z_to_string z
  | BoolV true => $"#t"
  | BoolV false => $"#f"
  | TextV t => [c_dquote] ++ t ++ [c_dquote]
  | ListV vs => $"(" ++ spaced (map inner_text vs) ++ $")"
  | NoV => $"<undefined>"
  | Nothing => []
  end.
(** The text of a value. *)
Definition text_of (v : value) : option str :=
  match v with
  | TextV t => Some t
  | NoV | Nothing => None
  | _ => Some (inner_text v)
  end.
(** Whether two values of the same kind are equal. *)
Inductive alike : value -> value -> bool -> Prop :=
| al_num : forall a b, alike (NumV a) (NumV b) (Z.eqb a b)
| al_bool : forall a b, alike (BoolV a) (BoolV b) (Bool.eqb a b)
| al_text : forall a b, alike (TextV a) (TextV b) (if list_eq_dec ascii_dec a b then true else false).
Definition short {A} (l : list A) : Prop := (Z.of_nat (length l) <= 2147483647)%Z.
(** The functions on values. *)
Inductive prim : str -> list value -> value -> Prop :=
| pr_op : forall k a b v, computes k a b v -> prim (op_name k) [NumV a; NumV b] v
| pr_fold : forall n f z zs, operation n f -> zs <> [] -> all_fit f z zs -> fits (fold_left f zs z) -> prim n (map NumV (z :: zs)) (NumV (fold_left f zs z))
| pr_minus : forall z, fits (- z) -> prim $"-" [NumV z] (NumV (- z))
| pr_not : forall b, prim $"not" [BoolV b] (BoolV (negb b))
| pr_same : forall a b e, alike a b e -> prim $"==" [a; b] (BoolV e)
| pr_other : forall a b e, alike a b e -> prim $"!=" [a; b] (BoolV (negb e))
| pr_join : forall t ts, prim $"+" (map TextV (t :: ts)) (TextV (concat (t :: ts)))
| pr_str : forall v t, text_of v = Some t -> prim $"str" [v] (TextV t)
| pr_list : forall vs, prim $"list" vs (ListV vs)
| pr_cons : forall v vs, prim $"cons" [v; ListV vs] (ListV (v :: vs))
| pr_append : forall vss, prim $"append" (map ListV vss) (ListV (concat vss))
| pr_reverse : forall vs, prim $"reverse" [ListV vs] (ListV (rev vs))
| pr_len : forall vs, short vs -> prim $"len" [ListV vs] (NumV (Z.of_nat (length vs)))
| pr_first : forall n v vs, In n [$"first"; $"car"] -> prim n [ListV (v :: vs)] v
| pr_rest : forall n v vs, In n [$"rest"; $"cdr"] -> prim n [ListV (v :: vs)] (ListV vs)
| pr_last : forall vs v, prim $"last" [ListV (vs ++ [v])] v
| pr_nth : forall k vs v, nth_error vs k = Some v -> prim $"nth" [NumV (Z.of_nat k); ListV vs] v
| pr_text_reverse : forall t, short t -> prim $"reverse" [TextV t] (TextV (rev t))
| pr_text_len : forall t, short t -> prim $"len" [TextV t] (NumV (Z.of_nat (length t)))
| pr_text_first : forall n t, In n [$"first"; $"car"] -> short t -> prim n [TextV t] (TextV (firstn 1 t))
| pr_text_rest : forall n c t, In n [$"rest"; $"cdr"] -> prim n [TextV (c :: t)] (TextV t)
| pr_text_last : forall t c, prim $"last" [TextV (t ++ [c])] (TextV [c])
| pr_text_nth : forall k t, (k <= length t)%nat -> prim $"nth" [NumV (Z.of_nat k); TextV t] (TextV (firstn 1 (skipn k t))).
Definition empty_store : store := fun _ => None.
Definition update (m : store) (x : str) (v : value) : store := fun y => if list_eq_dec ascii_dec y x then Some v else m y.
Fixpoint parameters_of (xs : list str) (vs : list value) : store :=
  match xs, vs with x :: xs', v :: vs' => update (parameters_of xs' vs') x v | _, _ => empty_store end.
(** The names with a fixed meaning, and names used by the interpreter itself. *)
Definition words : list str :=
  [$"+"; $"-"; $"*"; $"/"; $"%"; $"<"; $"<="; $">"; $">="; $"=="; $"!="; $"not"; $"and"; $"if"; $"def"; $"setf"; $"do"; $"while"; $"println"; $"return"; $"defn"; $"fn";
   $"str"; $"list"; $"cons"; $"append"; $"reverse"; $"len"; $"first"; $"car"; $"rest"; $"cdr"; $"last"; $"nth"; $"map"; $"reduce"].
Definition private : list str := [$"###macros###"; $"###traceon###"; $"###tracebuffer###"; $"###args###"; $"_additionalArgs"; $"###modules###"; $"define-macro-expand"].
(** A name for variables. *)
Definition tidy (F : funs) (x : str) : Prop := x <> [] /\ ~ In x words /\ ~ In x private /\ F x = None.
(** The names that stand for functions. *)
Definition fixed (F : funs) (n : str) : Prop := In n words \/ F n <> None.

(** [yields F m e v o]: with variables [m], expression [e] has value [v]; functions it calls print [o].
    [does F m s m' v r o]: statement [s] changes the variables from [m] to [m'], has the value [v], leaves the
    function if [r], and prints [o].  A called function sees its parameters only. *)
Inductive yields (F : funs) : store -> exp -> value -> str -> Prop :=
| yi_const : forall m v, yields F m (Const v) v []
| yi_name : forall m x v, m x = Some v -> yields F m (Name x) v []
| yi_prim : forall m n es vs v o, yield_all F m es vs o -> prim n vs v -> yields F m (Prim n es) v o
| yi_both_no : forall m a b o, yields F m a (BoolV false) o -> yields F m (Both a b) (BoolV false) o
| yi_both : forall m a b y o1 o2, yields F m a (BoolV true) o1 -> yields F m b (BoolV y) o2 -> yields F m (Both a b) (BoolV y) (o1 ++ o2)
| yi_cond : forall m c (x : bool) a b v o1 o2, yields F m c (BoolV x) o1 -> yields F m (if x then a else b) v o2 -> yields F m (Cond c a b) v (o1 ++ o2)
| yi_call : forall m f es xs b vs o1 m' v r o2, F f = Some (xs, b) -> yield_all F m es vs o1 -> length xs = length vs -> NoDup xs -> Forall (tidy F) xs ->
    does F (parameters_of xs vs) b m' v r o2 -> v <> Nothing -> yields F m (Call f es) v (o1 ++ o2)
| yi_each : forall m f e vs us o1 o2, fixed F f -> yields F m e (ListV vs) o1 -> each F f vs us o2 -> yields F m (Each f e) (ListV us) (o1 ++ o2)
| yi_gather : forall m f e e0 vs v0 v o1 o2 o3, fixed F f -> yields F m e (ListV vs) o1 -> yields F m e0 v0 o2 -> gathers F f vs v0 v o3 ->
    yields F m (Gather f e e0) v (o1 ++ o2 ++ o3)
with yield_all (F : funs) : store -> list exp -> list value -> str -> Prop :=
| ya_nil : forall m, yield_all F m [] [] []
| ya_cons : forall m e es v vs o1 o2, yields F m e v o1 -> yield_all F m es vs o2 -> yield_all F m (e :: es) (v :: vs) (o1 ++ o2)
with does (F : funs) : store -> stm -> store -> value -> bool -> str -> Prop :=
| do_exp : forall m e v o, yields F m e v o -> does F m (Exp e) m v false o
| do_return : forall m e v o, yields F m e v o -> does F m (Return e) m v true o
| do_def : forall m x e v o, tidy F x -> yields F m e v o -> does F m (Def x e) (update m x v) v false o
| do_set : forall m x e v o, tidy F x -> m x <> None -> yields F m e v o -> does F m (Set_ x e) (update m x v) v false o
| do_block : forall m ss m' v r o, do_all F m ss NoV m' v r o -> does F m (Block ss) m' v r o
| do_if : forall m c (x : bool) a b m' v r o1 o2, yields F m c (BoolV x) o1 -> does F m (if x then a else b) m' v r o2 -> does F m (If c a b) m' v r (o1 ++ o2)
| do_when : forall m c a m' v r o1 o2, yields F m c (BoolV true) o1 -> does F m a m' v r o2 -> does F m (When c a) m' v r (o1 ++ o2)
| do_when_not : forall m c a o, yields F m c (BoolV false) o -> does F m (When c a) m Nothing false o
| do_while : forall m c b m' v r o, loops F m c b NoV m' v r o -> does F m (While c b) m' v r o
| do_print : forall m e v t o, yields F m e v o -> text_of v = Some t -> does F m (Print e) m (TextV t) false (o ++ t ++ [c_nl])
(** The statements of a block one after the other; the value so far is [v0]. *)
with do_all (F : funs) : store -> list stm -> value -> store -> value -> bool -> str -> Prop :=
| da_end : forall m v0, do_all F m [] v0 m v0 false []
| da_next : forall m s ss v0 m1 v1 o1 m2 v2 r o2, does F m s m1 v1 false o1 -> do_all F m1 ss v1 m2 v2 r o2 -> do_all F m (s :: ss) v0 m2 v2 r (o1 ++ o2)
| da_leave : forall m s ss v0 m1 v1 o1, does F m s m1 v1 true o1 -> do_all F m (s :: ss) v0 m1 v1 true o1
(** The rounds of a loop; the value so far is [v0]. *)
with loops (F : funs) : store -> exp -> stm -> value -> store -> value -> bool -> str -> Prop :=
| lo_end : forall m c b v0 o, yields F m c (BoolV false) o -> loops F m c b v0 m v0 false o
| lo_next : forall m c b v0 o1 m1 v1 o2 m2 v2 r o3, yields F m c (BoolV true) o1 -> does F m b m1 v1 false o2 -> loops F m1 c b v1 m2 v2 r o3 ->
    loops F m c b v0 m2 v2 r (o1 ++ o2 ++ o3)
| lo_leave : forall m c b v0 o1 m1 v1 o2, yields F m c (BoolV true) o1 -> does F m b m1 v1 true o2 -> loops F m c b v0 m1 v1 true (o1 ++ o2)
(** The function [f], of the program or on values, has the value [v] for the arguments [vs] and prints [o]. *)
with applies (F : funs) : str -> list value -> value -> str -> Prop :=
| ap_prim : forall n vs v, prim n vs v -> applies F n vs v []
| ap_fun : forall f xs b vs m' v r o, F f = Some (xs, b) -> length xs = length vs -> NoDup xs -> Forall (tidy F) xs -> does F (parameters_of xs vs) b m' v r o -> v <> Nothing ->
    applies F f vs v o
(** ... for one element of a list after the other. *)
with each (F : funs) : str -> list value -> list value -> str -> Prop :=
| ec_end : forall f, each F f [] [] []
| ec_next : forall f v vs u us o1 o2, applies F f [v] u o1 -> each F f vs us o2 -> each F f (v :: vs) (u :: us) (o1 ++ o2)
(** ... for one element after the other and the value so far. *)
with gathers (F : funs) : str -> list value -> value -> value -> str -> Prop :=
| ga_end : forall f v0, gathers F f [] v0 v0 []
| ga_next : forall f v vs v0 v1 v2 o1 o2, applies F f [v; v0] v1 o1 -> gathers F f vs v1 v2 o2 -> gathers F f (v :: vs) v0 v2 (o1 ++ o2).

(** ** Programs as expressions of the interpreter *)
(** How values look in the interpreter. *)
Inductive val_is (st : state) : variant -> value -> Prop :=
| vi_num : forall w z, is_int w z -> fits z -> val_is st w (NumV z)
| vi_bool : forall w b, is_bool w b -> val_is st w (BoolV b)
| vi_text : forall w t, is_str w t -> val_is st w (TextV t)
| vi_list : forall w l ps vs, is_list_at st w l ps -> v_unq w <> UnqSplice -> vals_are st ps vs -> val_is st w (ListV vs)
| vi_none : forall w, v_ty w = TUndef -> val_is st w NoV
with vals_are (st : state) : list ptr -> list value -> Prop :=
| va_nil : vals_are st [] []
| va_cons : forall i w v ps vs, val_is st w v -> vals_are st ps vs -> vals_are st (P i (OVar w) :: ps) (v :: vs).
Definition res_is (st : state) (r : result) (v : value) : Prop := match r with Some w => val_is st w v | None => v = Nothing end.
(** The values that are written as themselves. *)
Definition simple (v : value) : Prop := match v with NumV _ | BoolV _ | TextV _ | NoV => True | ListV _ | Nothing => False end.
(** The code (name args...). *)
Definition code_of (st : state) (p : ptr) (name : str) (args : list ptr) : Prop :=
  exists i l j h, p = P i (OList l) /\ vec_at st l = Some (P j (OVar h) :: args) /\ is_sym h name.
Inductive exp_at (st : state) : ptr -> exp -> Prop :=
| ea_const : forall i w v, simple v -> val_is st w v -> exp_at st (P i (OVar w)) (Const v)
| ea_name : forall p x, expr_sym p x -> exp_at st p (Name x)
| ea_prim : forall p n ps es, code_of st p n ps -> exps_at st ps es -> exp_at st p (Prim n es)
| ea_both : forall p pa pb a b, code_of st p $"and" [pa; pb] -> exp_at st pa a -> exp_at st pb b -> exp_at st p (Both a b)
| ea_cond : forall p pc pa pb c a b, code_of st p $"if" [pc; pa; pb] -> exp_at st pc c -> exp_at st pa a -> exp_at st pb b -> exp_at st p (Cond c a b)
| ea_call : forall p f ps es, code_of st p f ps -> exps_at st ps es -> exp_at st p (Call f es)
| ea_each : forall p pf f pe e, code_of st p $"map" [pf; pe] -> expr_sym pf f -> exp_at st pe e -> exp_at st p (Each f e)
| ea_gather : forall p pf f pe p0 e e0, code_of st p $"reduce" [pf; pe; p0] -> expr_sym pf f -> exp_at st pe e -> exp_at st p0 e0 -> exp_at st p (Gather f e e0)
with exps_at (st : state) : list ptr -> list exp -> Prop :=
| es_nil : exps_at st [] []
| es_cons : forall p ps e es, exp_at st p e -> exps_at st ps es -> exps_at st (p :: ps) (e :: es).
Inductive stm_at (st : state) : ptr -> stm -> Prop :=
| sa_exp : forall p e, exp_at st p e -> stm_at st p (Exp e)
| sa_return : forall p pe e, code_of st p $"return" [pe] -> exp_at st pe e -> stm_at st p (Return e)
| sa_def : forall p px pe x e, code_of st p $"def" [px; pe] -> expr_sym px x -> exp_at st pe e -> stm_at st p (Def x e)
| sa_set : forall p px pe x e, code_of st p $"setf" [px; pe] -> expr_sym px x -> exp_at st pe e -> stm_at st p (Set_ x e)
| sa_block : forall p ps ss, code_of st p $"do" ps -> stms_at st ps ss -> stm_at st p (Block ss)
| sa_if : forall p pc pa pb c a b, code_of st p $"if" [pc; pa; pb] -> exp_at st pc c -> stm_at st pa a -> stm_at st pb b -> stm_at st p (If c a b)
| sa_when : forall p pc pa c a, code_of st p $"if" [pc; pa] -> exp_at st pc c -> stm_at st pa a -> stm_at st p (When c a)
| sa_while : forall p pc pb c b, code_of st p $"while" [pc; pb] -> exp_at st pc c -> stm_at st pb b -> stm_at st p (While c b)
| sa_print : forall p pe e, code_of st p $"println" [pe] -> exp_at st pe e -> stm_at st p (Print e)
with stms_at (st : state) : list ptr -> list stm -> Prop :=
| ss_nil : stms_at st [] []
| ss_cons : forall i l ps s ss, stm_at st (P i (OList l)) s -> stms_at st ps ss -> stms_at st (P i (OList l) :: ps) (s :: ss).

(** ** States in which programs run *)
(** In the global scope [g] the words are the functions of a fresh interpreter, the functions [F] are defined,
    none of them is a macro, and trace output is off. *)
Definition defined (st : state) (g : sid) (f : str) (xs : list str) (b : stm) : Prop :=
  exists i v fn fname modname fp body more ds, var_at st g f = Some (P i (OVar v)) /\ is_fn v fn /\ fn_sp fn = false /\
    fn_code fn = CClosure fname modname (fp :: body :: more) ds /\ asks_value st ds /\ parameters st fp xs /\ stm_at st body b.
Definition world (F : funs) (st : state) (g : sid) : Prop :=
  numbered st /\ heap_numbered st /\ (exists gs, scope_at st g = Some gs /\ s_tracing gs = false) /\
  (forall n, fixed F n -> no_macro st g n /\ ~ In n private) /\
  (forall n, In n words -> exists i v fn, var_at st g n = Some (P i (OVar v)) /\ is_fn v fn /\ builtin_fn n = Some fn) /\
  (forall f xs b, F f = Some (xs, b) -> defined st g f xs b).
(** Scope [s], below the global scope [g], has the variables [m] and does not hide the fixed names. *)
Definition frame (F : funs) (st : state) (s g : sid) (m : store) : Prop :=
  (exists sc, scope_at st s = Some sc /\ s_global sc = g /\ s_needlv sc = false) /\
  (forall n, fixed F n -> s = g \/ var_at st s n = None) /\
  (forall x v, m x = Some v -> exists i w, var_at st s x = Some (P i (OVar w)) /\ val_is st w v) /\
  (var_at st s $"###traceon###" = None \/ exists b, collects st s b).
(** What a run may change: the return marks of the scopes [A] and the variables [W]; new lists and scopes may be
    made and places noted for error messages. *)
Definition keeps (A : sid -> Prop) (W : sid -> str -> Prop) (st st' : state) : Prop :=
  (forall l es, vec_at st l = Some es -> vec_at st' l = Some es) /\
  (forall u sc, scope_at st u = Some sc -> exists sc', scope_at st' u = Some sc' /\ s_global sc' = s_global sc /\ s_closure sc' = s_closure sc /\
     s_name sc' = s_name sc /\ s_tracing sc' = s_tracing sc /\ s_needlv sc' = s_needlv sc /\ (~ A u -> s_inret sc' = s_inret sc)) /\
  (forall u n, scope_exists st u -> ~ W u n -> var_at st' u n = var_at st u n) /\
  (forall l d, dict_at st l = Some d -> dict_at st' l = Some d) /\ st_in st' = st_in st /\ st_files st' = st_files st /\ st_env st' = st_env st.
Definition no_scope (u : sid) : Prop := False.
Definition its_variables (F : funs) (s u : sid) (n : str) : Prop := u = s /\ ~ fixed F n /\ n <> $"###macros###" /\ n <> $"###traceon###".

(** ** Definitions of functions *)
(** The signature shown for a function. *)
Definition signature (name : str) (names : list str) : str := $"(" ++ name ++ concat (map (fun n => $" " ++ n) names) ++ $")".
(** [d] is the comment directly before the definition, whose name is the token [t]; it stands before an opening bracket and a keyword. *)
Definition documents (ts : list token) (t : option token) (d : str) : Prop :=
  (t = None -> d = []) /\
  forall a c o k n b, t = Some n -> NoDup (map tk_start ts) -> ts = a ++ c :: o :: k :: n :: b ->
    (forall x, tk_type c = TkComment -> tk_val c = TvStr x -> d = x) /\ (tk_type c <> TkComment -> d = []).
(** Signature and documentation were noted in the scope; nothing else has changed. *)
Definition described (st st' : state) (s : sid) (d : str * str) : Prop :=
  (exists sc, scope_at st s = Some sc /\ scope_at st' s = Some (set_userdata None (set_userdoc (Some d) sc))) /\
  (forall u, u <> s -> scope_at st' u = scope_at st u) /\
  st_vecs st' = st_vecs st /\ st_dicts st' = st_dicts st /\ st_out st' = st_out st /\ st_in st' = st_in st /\
  st_files st' = st_files st /\ st_env st' = st_env st.
(** A function of the global scope has its usual meaning. *)
Definition global_word (st : state) (s : sid) (name : str) : Prop :=
  exists sc i v f, scope_at st s = Some sc /\ var_at st (s_global sc) name = Some (P i (OVar v)) /\ is_fn v f /\ builtin_fn name = Some f.

(** ** Programs as text *)
(** How expressions and statements are written, apart from blanks and comments. *)
Definition symbol (x : str) : expr := EAtom (TkSymbol, TvStr x).
Inductive exp_text : exp -> expr -> Prop :=
| xt_num : forall z, fits z -> exp_text (Const (NumV z)) (EAtom (TkInt, TvInt z))
| xt_true : exp_text (Const (BoolV true)) (EAtom (TkTrue, TvBool true))
| xt_false : exp_text (Const (BoolV false)) (EAtom (TkFalse, TvBool false))
| xt_text : forall t, exp_text (Const (TextV t)) (EAtom (TkString, TvStr t))
| xt_name : forall x, exp_text (Name x) (symbol x)
| xt_prim : forall n es xs, ~ In n private -> exps_text es xs -> exp_text (Prim n es) (EList (symbol n :: xs))
| xt_both : forall a b ea eb, exp_text a ea -> exp_text b eb -> exp_text (Both a b) (EList [symbol $"and"; ea; eb])
| xt_cond : forall c a b ec ea eb, exp_text c ec -> exp_text a ea -> exp_text b eb -> exp_text (Cond c a b) (EList [symbol $"if"; ec; ea; eb])
| xt_call : forall f es xs, ~ In f private -> exps_text es xs -> exp_text (Call f es) (EList (symbol f :: xs))
| xt_each : forall f e x, exp_text e x -> exp_text (Each f e) (EList [symbol $"map"; symbol f; x])
| xt_gather : forall f e e0 x x0, exp_text e x -> exp_text e0 x0 -> exp_text (Gather f e e0) (EList [symbol $"reduce"; symbol f; x; x0])
with exps_text : list exp -> list expr -> Prop :=
| xs_nil : exps_text [] []
| xs_cons : forall e x es xs, exp_text e x -> exps_text es xs -> exps_text (e :: es) (x :: xs).
Inductive stm_text : stm -> expr -> Prop :=
| mt_exp : forall e x, exp_text e x -> stm_text (Exp e) x
| mt_return : forall e x, exp_text e x -> stm_text (Return e) (EList [symbol $"return"; x])
| mt_def : forall y e x, exp_text e x -> stm_text (Def y e) (EList [symbol $"def"; symbol y; x])
| mt_set : forall y e x, exp_text e x -> stm_text (Set_ y e) (EList [symbol $"setf"; symbol y; x])
| mt_block : forall ss xs, stms_text ss xs -> stm_text (Block ss) (EList (symbol $"do" :: xs))
| mt_if : forall c a b ec ea eb, exp_text c ec -> stm_text a ea -> stm_text b eb -> stm_text (If c a b) (EList [symbol $"if"; ec; ea; eb])
| mt_when : forall c a ec ea, exp_text c ec -> stm_text a ea -> stm_text (When c a) (EList [symbol $"if"; ec; ea])
| mt_while : forall c b ec eb, exp_text c ec -> stm_text b eb -> stm_text (While c b) (EList [symbol $"while"; ec; eb])
| mt_print : forall e x, exp_text e x -> stm_text (Print e) (EList [symbol $"println"; x])
(** Statements in a row have to be in brackets. *)
with stms_text : list stm -> list expr -> Prop :=
| ms_nil : stms_text [] []
| ms_cons : forall s l ss xs, stm_text s (EList l) -> stms_text ss xs -> stms_text (s :: ss) (EList l :: xs).
(** A program: functions, and statements to run. *)
Definition fundef := (str * (list str * stm))%type.
Definition fun_text (d : fundef) (x : expr) : Prop :=
  exists eb, x = EList [symbol $"defn"; symbol (fst d); EList (map symbol (fst (snd d))); eb] /\ stm_text (snd (snd d)) eb.
Definition program_text (defs : list fundef) (ss : list stm) (l : list expr) : Prop :=
  exists l1 l2, l = l1 ++ l2 /\ Forall2 fun_text defs l1 /\ stms_text ss l2.
Fixpoint table (defs : list fundef) : funs :=
  match defs with [] => fun _ => None | (f, d) :: defs' => fun n => if list_eq_dec ascii_dec n f then Some d else table defs' n end.
Definition free_name (n : str) : Prop := n <> [] /\ ~ In n words /\ ~ In n private.
(** Functions have different names; names are not reserved. *)
Definition well_named (defs : list fundef) : Prop :=
  NoDup (map fst defs) /\ Forall (fun d => free_name (fst d) /\ Forall free_name (fst (snd d))) defs.

(** ** Numbers computed by the programs *)
(** The Fibonacci numbers. *)
Fixpoint fib (n : nat) : Z := match n with O => 0%Z | S m => match m with O => 1%Z | S k => (fib m + fib k)%Z end end.
(** The sum of the squares of numbers. *)
Definition squares (zs : list Z) : Z := fold_right (fun z t => (z * z + t)%Z) 0%Z zs.
