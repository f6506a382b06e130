(** Vocabulary for statements about what names stand for in functions.  Nothing here models code. *)
Require Import String Ascii List ZArith Bool Lia.
From Verif Require Import Base CppString Num Token Value State Builtins Eval LispTop SpecRun SpecVal SpecNum SpecList SpecForm SpecIo SpecLang.
Import ListNotations.

(** The variable that a name stands for in scope [s] below the global scope [g]: its own one, else the global one,
    else the one of the nearest scope around it. *)
Inductive finds (st : state) (s g : sid) (x : str) : ptr -> Prop :=
| fd_own : forall p, var_at st s x = Some p -> finds st s g x p
| fd_global : forall p, var_at st s x = None -> var_at st g x = Some p -> finds st s g x p
| fd_around : forall c p, var_at st s x = None -> var_at st g x = None -> enclosing st x s (Some (c, p)) -> finds st s g x p.
(** In scope [s], below the global scope [g], the names stand for the values [m]; the fixed names are not hidden. *)
Definition view (F : funs) (st : state) (s g : sid) (m : store) : Prop :=
  (exists sc, scope_at st s = Some sc /\ s_global sc = g /\ s_needlv sc = false) /\
  (forall n, fixed F n -> s = g \/ var_at st s n = None) /\
  (forall x v, m x = Some v -> exists i w, finds st s g x (P i (OVar w)) /\ val_is st w v) /\
  (var_at st s $"###traceon###" = None \/ exists b, collects st s b).
