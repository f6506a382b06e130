(** Vocabulary for statements about programs that never end.  Nothing here models code. *)
Require Import String Ascii List ZArith Bool Lia.
From Verif Require Import Base CppString Num Token Value State Builtins Eval LispTop SpecRun SpecVal SpecNum SpecList SpecForm SpecIo SpecLang.
Import ListNotations.

(** [never F m s]: with the variables [m], statement [s] gets, perhaps by calling functions, into a loop whose condition stays true and whose
    rounds all end; [I] are the variables that can occur at the beginning of a round. *)
Inductive never (F : funs) : store -> stm -> Prop :=
| nv_forever : forall (I : store -> Prop) m c b, I m ->
    (forall m1, I m1 -> exists m2 v o1 o2, yields F m1 c (BoolV true) o1 /\ does F m1 b m2 v false o2 /\ I m2) -> never F m (While c b)
| nv_test : forall m c b, never_exp F m c -> never F m (While c b)
| nv_inside : forall m c b o, yields F m c (BoolV true) o -> never F m b -> never F m (While c b)
| nv_round : forall m c b o1 m1 v o2, yields F m c (BoolV true) o1 -> does F m b m1 v false o2 -> never F m1 (While c b) -> never F m (While c b)
| nv_block : forall m ss, never_all F m ss -> never F m (Block ss)
| nv_if_test : forall m c a b, never_exp F m c -> never F m (If c a b)
| nv_if : forall m c (x : bool) a b o, yields F m c (BoolV x) o -> never F m (if x then a else b) -> never F m (If c a b)
| nv_when_test : forall m c a, never_exp F m c -> never F m (When c a)
| nv_when : forall m c a o, yields F m c (BoolV true) o -> never F m a -> never F m (When c a)
| nv_exp : forall m e, never_exp F m e -> never F m (Exp e)
| nv_return : forall m e, never_exp F m e -> never F m (Return e)
| nv_def : forall m x e, never_exp F m e -> never F m (Def x e)
| nv_set : forall m x e, never_exp F m e -> never F m (Set_ x e)
| nv_print : forall m e, never_exp F m e -> never F m (Print e)
with never_all (F : funs) : store -> list stm -> Prop :=
| na_here : forall m s ss, never F m s -> never_all F m (s :: ss)
| na_later : forall m s ss m1 v o, does F m s m1 v false o -> never_all F m1 ss -> never_all F m (s :: ss)
(** The same for expressions: the body of a called function, an argument, the operands of [and], or a part of a conditional never ends. *)
with never_exp (F : funs) : store -> exp -> Prop :=
| nx_call : forall m f es xs b vs o, F f = Some (xs, b) -> yield_all F m es vs o -> length xs = length vs -> NoDup xs -> Forall (tidy F) xs -> never F (parameters_of xs vs) b ->
    never_exp F m (Call f es)
| nx_call_arg : forall m f es d, F f = Some d -> never_arg F m es -> never_exp F m (Call f es)
| nx_prim_arg : forall m n es vs v, prim n vs v -> never_arg F m es -> never_exp F m (Prim n es)
| nx_test : forall m c a b, never_exp F m c -> never_exp F m (Cond c a b)
| nx_cond : forall m c (x : bool) a b o, yields F m c (BoolV x) o -> never_exp F m (if x then a else b) -> never_exp F m (Cond c a b)
| nx_both : forall m a b, never_exp F m a -> never_exp F m (Both a b)
| nx_both_second : forall m a b o, yields F m a (BoolV true) o -> never_exp F m b -> never_exp F m (Both a b)
(** Variables among the arguments are read before the first argument is evaluated, so they have to exist. *)
with never_arg (F : funs) : store -> list exp -> Prop :=
| ng_here : forall m e es, never_exp F m e -> (forall x, In (Name x) es -> m x <> None) -> never_arg F m (e :: es)
| ng_later : forall m e es v o, yields F m e v o -> never_arg F m es -> never_arg F m (e :: es).
Scheme never_ind2 := Minimality for never Sort Prop with never_all_ind2 := Minimality for never_all Sort Prop
  with never_exp_ind2 := Minimality for never_exp Sort Prop with never_arg_ind2 := Minimality for never_arg Sort Prop.
Combined Scheme never_mind from never_ind2, never_all_ind2, never_exp_ind2, never_arg_ind2.
