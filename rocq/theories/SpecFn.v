(** Vocabulary for statements about functions made by functions.  Nothing here models code. *)
Require Import String Ascii List ZArith Bool Lia.
From Verif Require Import Base CppString Num Token Value State Builtins Eval LispTop SpecRun SpecVal SpecNum SpecList SpecForm SpecIo SpecLang SpecClos.
Import ListNotations.

(** ** Functions made by functions *)
(** The function was written in scope [ds], with the parameters [xs]. *)
Definition written_in (st : state) (fn : fnval) (ds : sid) (xs : list str) (body : ptr) : Prop :=
  exists fname modname fp more, fn_code fn = CClosure fname modname (fp :: body :: more) ds /\ parameters st fp xs.
(** The variable that a name that is no parameter stands for in a function written in scope [ds]: the global one,
    else the one of the scope, else the one of the nearest scope around it. *)
Inductive captures (st : state) (ds g : sid) (x : str) : ptr -> Prop :=
| ct_global : forall p, var_at st g x = Some p -> captures st ds g x p
| ct_here : forall p, var_at st g x = None -> var_at st ds x = Some p -> captures st ds g x p
| ct_around : forall c p, var_at st g x = None -> var_at st ds x = None -> enclosing st x ds (Some (c, p)) -> captures st ds g x p.
Definition surroundings (F : funs) (st : state) (ds g : sid) (m : store) : Prop :=
  asks_value st ds /\ forall x v, m x = Some v -> tidy F x /\ exists i w, captures st ds g x (P i (OVar w)) /\ val_is st w v.
(** The parameters hide other variables. *)
Definition over (m m0 : store) : store := fun x => match m x with Some v => Some v | None => m0 x end.
Definition no_variable (u : sid) (n : str) : Prop := False.
Definition the_variable (s : sid) (x : str) (u : sid) (n : str) : Prop := u = s /\ n = x.
(** The name is one of fn and lambda and has its usual meaning. *)
Definition makes_functions (st : state) (g : sid) (nm : str) : Prop :=
  In nm [$"fn"; $"lambda"] /\ no_macro st g nm /\ exists i v f, var_at st g nm = Some (P i (OVar v)) /\ is_fn v f /\ builtin_fn nm = Some f.
(** The code (setf x e). *)
Definition sets (st : state) (p : ptr) (x : str) (e : exp) : Prop :=
  exists px pe, code_of st p $"setf" [px; pe] /\ expr_sym px x /\ exp_at st pe e.

(** ** Counters *)
(** A counter is a function without parameters with the body (setf n (+ n k)), written in scope [ds]. *)
Definition counter (F : funs) (st : state) (fn : fnval) (ds : sid) (n : str) (k : Z) : Prop :=
  (exists body, written_in st fn ds [] body /\ sets st body n (Prim $"+" [Name n; Const (NumV k)])) /\ tidy F n /\ asks_value st ds.
Definition var_is (st : state) (s : sid) (x : str) (v : value) : Prop := exists i w, var_at st s x = Some (P i (OVar w)) /\ val_is st w v.
(** Counters: function, scope, name of the variable and step. *)
Definition kit := (fnval * sid * str * Z)%type.
Definition home (c : kit) : sid * str := match c with (_, ds, n, _) => (ds, n) end.
Definition stands_at (F : funs) (st : state) (g : sid) (c : kit) (z : Z) : Prop :=
  match c with (fn, ds, n, k) => counter F st fn ds n k /\ var_at st g n = None /\ var_is st ds n (NumV z) end.
(** What counters with the steps [ks] answer when they are called in the given order: every counter counts on its own. *)
Inductive answers (cs : list kit) : (nat -> Z) -> list nat -> list Z -> (nat -> Z) -> Prop :=
| an_end : forall zs, answers cs zs [] [] zs
| an_call : forall zs i fn ds n k is bs zs', nth_error cs i = Some (fn, ds, n, k) -> fits (zs i + k) ->
    answers cs (fun j => if Nat.eqb j i then zs i + k else zs j)%Z is bs zs' -> answers cs zs (i :: is) ((zs i + k)%Z :: bs) zs'.
(** Calling the functions in the given order. *)
Inductive called (cs : list kit) (s : sid) : list nat -> state -> list variant -> state -> Prop :=
| cl_end : forall st, called cs s [] st [] st
| cl_call : forall i fn ds n k is st w st1 ws st2, nth_error cs i = Some (fn, ds, n, k) -> calls fn [] s st (Val (Some w)) st1 -> called cs s is st1 ws st2 ->
    called cs s (i :: is) st (w :: ws) st2.
