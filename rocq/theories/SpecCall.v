(** Vocabulary for statements about spliced arguments, apply, eval, evalstr and places of lists.  Nothing here models code. *)
Require Import String Ascii List ZArith Bool Lia.
Require Import PArith FMapPositive.
From Verif Require Import Base CppString Num Token Value State Builtins Eval LispTop SpecRun SpecVal SpecList SpecForm.
Import ListNotations.

(** ** Splicing *)
(** The value is a list that quasiquote marked as one to be spliced in. *)
Definition to_splice (st : state) (v : variant) (es : list ptr) : Prop :=
  v_unq v = UnqSplice /\ ((exists l, is_list_at st v l es) \/ (v_ty v = TNil /\ es = [])).
(** Evaluating the arguments of an ordinary function up to the first list to splice: its elements follow the
    arguments before it; the expressions after it are not evaluated, a null pointer takes the place of each. *)
Inductive spliced (s : sid) : list ptr -> state -> list ptr -> state -> Prop :=
| sp_value : forall i v ps st es, to_splice st v es -> spliced s (P i (OVar v) :: ps) st (es ++ repeat PNull (length ps)) st
| sp_list : forall i l ps st v st1 q st2 es, evals (P i (OList l)) s st (Val (Some v)) st1 -> boxed v st1 q st2 -> to_splice st2 v es ->
    spliced s (P i (OList l) :: ps) st (es ++ repeat PNull (length ps)) st2
| sp_after_value : forall i v ps st qs st', settled v -> spliced s ps st qs st' ->
    spliced s (P i (OVar v) :: ps) st (P i (OVar v) :: qs) st'
| sp_after_list : forall i l ps st v st1 st2 q qs st3, evals (P i (OList l)) s st (Val (Some v)) st1 -> settled v -> boxed v st1 q st2 ->
    spliced s ps st2 qs st3 -> spliced s (P i (OList l) :: ps) st (q :: qs) st3.

(** ** Scopes *)
(** The state with scope [s] replaced. *)
Definition scope_becomes (s : sid) (sc : scope) (st : state) : state := with_scopes (PositiveMap.add s sc (st_scopes st)) st.
(** A script evaluated by Lisp::Eval in scope [s], as evalstr does it. *)
Definition runs_in (s : sid) (code modname : str) : state -> out result -> state -> Prop :=
  ends_with (fun n => lisp_eval (run n) false false code s modname).

(** ** Places *)
(** Scope [s] asks for a place to assign to. *)
Definition asked (st : state) (s : sid) : state :=
  match scope_at st s with Some sc => scope_becomes s (set_needlv true sc) st | None => st end.
(** The arguments of first, last and nth that name position [i] of a list [n] long. *)
Inductive place_args : str -> list ptr -> variant -> (nat -> Z) -> Prop :=
| pa_first : forall i w, place_args $"first" [P i (OVar w)] w (fun _ => 0%Z)
| pa_last : forall i w, place_args $"last" [P i (OVar w)] w (fun n => Z.of_nat n - 1)%Z
| pa_nth : forall i w j k z, is_int k z -> place_args $"nth" [P j (OVar k); P i (OVar w)] w (fun _ => z).
(** The list with the element at position [n] replaced. *)
Definition replaced (es : list ptr) (n : Z) (x : ptr) (es' : list ptr) : Prop :=
  exists a y b, es = a ++ y :: b /\ Z.of_nat (length a) = n /\ es' = a ++ x :: b.
(** After (def l (list 7 8 9)) and (def m `,@(list 1 2)), with the code of some expressions in the heap. *)
Definition call_st : state := with_code
  [(71%positive, [sym_ 71 $"setf"; code_ 72 72; int_ 73 5]);
   (72%positive, [sym_ 71 $"nth"; int_ 72 1; sym_ 73 $"l"]);
   (73%positive, [sym_ 71 $"+"; int_ 72 10; sym_ 73 $"m"]);
   (74%positive, [sym_ 71 $"setf"; code_ 72 75; int_ 73 5]);
   (75%positive, [sym_ 71 $"quote"; sym_ 72 $"l"]);
   (76%positive, [sym_ 71 $"setf"; code_ 72 77; int_ 73 5]);
   (77%positive, [sym_ 71 $"nofunction"]);
   (78%positive, [sym_ 71 $"rval"; code_ 72 72])]
  (snd (eval_script 60 false false $"(def l (list 7 8 9)) (def m `,@(list 1 2))" [] fresh)).
(** The scope, for a state that has it. *)
Definition scope_of (st : state) (s : sid) : scope := match scope_at st s with Some sc => sc | None => LispTop.main_scope end.
