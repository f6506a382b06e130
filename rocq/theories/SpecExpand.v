(** Vocabulary for statements about the expansion of scripts.  Nothing here models code. *)
Require Import String Ascii List ZArith Bool Lia.
Require Import PArith FMapPositive.
From Verif Require Import Base CppString Num Token Value State Builtins Eval LispTop SpecRun SpecVal SpecList SpecForm SpecMacro.
Import ListNotations.

(** A number or a text, and how it is shown. *)
Definition plain_value (v : variant) (t : str) : Prop := (exists z, is_int v z /\ t = z_to_string z) \/ (is_str v t /\ fine_text t).
(** Somewhere in the code there is a list whose head is the name of a variable of the scope with the number or text [v] (shown as [t]);
    nothing before it is expanded. *)
Inductive stumbles (st : state) (s : sid) (v : variant) (t : str) : code -> Prop :=
| sb_here : forall h us i, scope_exists st s -> var_at st s (code_text h) = Some (P i (OVar v)) -> plain_value v t -> stumbles st s v t (CList (h :: us))
| sb_inside : forall h us pre x post, inert st s (code_text h) -> h :: us = pre ++ x :: post -> Forall (macro_free st s) pre -> stumbles st s v t x ->
    stumbles st s v t (CList (h :: us)).
Definition no_function (v : variant) (t : str) : exn :=
  ELisp ($"Invalid cast for function, value=" ++ t ++ $" not found") (ErrInfo (tok_line (v_tok v)) (tok_start (v_tok v)) (tok_stop (v_tok v)) $"???" $"???").
