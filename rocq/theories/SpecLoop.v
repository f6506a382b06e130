(** Vocabulary for statements about the loop function of the standard library.  Nothing here models code. *)
Require Import String Ascii List ZArith Bool Lia.
Require Import PArith FMapPositive.
From Verif Require Import Base CppString Num Token Value State Builtins Eval LispTop SpecLex SpecParse SpecRun SpecVal SpecNum SpecList SpecForm SpecIo SpecLang.
Import ListNotations.

(** ** The text of the function *)
(** Lines 130 to 141 of Library/fuellib.fuel, apart from blanks. *)
Definition foreach_text : str :=
  $"(defn foreach (container fcn) (do (def __i 0) (def max (len container)) (while (< __i max) (do (apply fcn (list (nth __i container))) (setf __i (+ __i 1))))))".

(** ** ... as code in memory *)
(** The pieces of the loop: the condition (< __i max), the body (do ...) and its two statements
    (apply fcn (list (nth __i container))) and (setf __i (+ __i 1)). *)
Record pieces := Pieces { the_condition : ptr; the_body : ptr; the_call : ptr; the_step : ptr }.
Definition loop_code (st : state) (q : pieces) : Prop :=
  exp_at st (the_condition q) (Prim $"<" [Name $"__i"; Name $"max"]) /\
  code_of st (the_body q) $"do" [the_call q; the_step q] /\
  (exists pf pl pn pi pk, code_of st (the_call q) $"apply" [pf; pl] /\ expr_sym pf $"fcn" /\ code_of st pl $"list" [pn] /\
     code_of st pn $"nth" [pi; pk] /\ expr_sym pi $"__i" /\ expr_sym pk $"container") /\
  stm_at st (the_step q) (Set_ $"__i" (Prim $"+" [Name $"__i"; Const (NumV 1)])).
(** (do (def __i 0) (def max (len container)) (while ...)) *)
Definition foreach_code (st : state) (p : ptr) (q : pieces) : Prop :=
  exists p1 p2 p3 px pe pk, code_of st p $"do" [p1; p2; p3] /\ stm_at st p1 (Def $"__i" (Const (NumV 0))) /\
    code_of st p2 $"def" [px; pe] /\ expr_sym px $"max" /\ code_of st pe $"len" [pk] /\ expr_sym pk $"container" /\
    code_of st p3 $"while" [the_condition q; the_body q] /\ loop_code st q.

(** ** The loop at work *)
(** In scope [s] below the global scope [g] the name stands for the function of a fresh interpreter. *)
Definition word_at (st : state) (s g : sid) (n : str) : Prop :=
  no_macro st g n /\ (s = g \/ var_at st s n = None) /\ exists i v fn, var_at st g n = Some (P i (OVar v)) /\ is_fn v fn /\ builtin_fn n = Some fn.
(** The variables of the loop: the index of the next element and the number of elements. *)
Definition counters (k n : nat) : store :=
  fun x => if list_eq_dec ascii_dec x $"__i" then Some (NumV (Z.of_nat k)) else if list_eq_dec ascii_dec x $"max" then Some (NumV (Z.of_nat n)) else None.
(** The call with scope [c] is running and has the variables [m]; [w] is the container, [f] the function. *)
Record at_work (F : funs) (g c : sid) (q : pieces) (w : variant) (f : fnval) (m : store) (st : state) : Prop := {
  aw_world : world F st g;
  aw_frame : frame F st c g m;
  aw_stays : leaving st c false;
  aw_trace : var_at st c $"###traceon###" = None;
  aw_apply : word_at st c g $"apply";
  aw_container : settled w /\ exists i, var_at st c $"container" = Some (P i (OVar w));
  aw_function : exists i v, var_at st c $"fcn" = Some (P i (OVar v)) /\ is_fn v f;
  aw_code : loop_code st q }.
(** What the loop does between two calls: nothing existing is changed but its two counters. *)
Definition own_steps (c : sid) (st st' : state) : Prop :=
  keeps no_scope (fun u n => u = c /\ In n [$"__i"; $"max"]) st st' /\ st_out st' = st_out st.
(** Element number [k] of a list, or character number [k] of a text, is [v]. *)
Definition stands_at (st : state) (w : variant) (k : nat) (v : variant) : Prop :=
  (exists l es e, is_list_at st w l es /\ nth_error es k = Some e /\ element e v /\ settled v) \/
  (exists t ch, is_str w t /\ nth_error t k = Some ch /\ is_str v [ch]).
(** The container has [n] elements. *)
Definition counts (st : state) (w : variant) (n : nat) : Prop :=
  (exists l es, is_list_at st w l es /\ length es = n /\ v_unq w <> UnqSplice) \/ (exists t, is_str w t /\ length t = n).
(** The value of the loop is the counter; without a round it is undefined. *)
Definition loop_value (n : nat) (r : result) : Prop :=
  exists v, r = Some v /\ match n with O => v_ty v = TUndef | _ => is_int v (Z.of_nat n) end.
(** [I k] holds before round [k]: it survives the own steps of the loop, there is an element number [k], and
    the call of the function with it ends, leaves the loop as it is, and gives [I (k + 1)]. *)
Definition carries (F : funs) (g c : sid) (q : pieces) (w : variant) (f : fnval) (n : nat) (I : nat -> state -> Prop) : Prop :=
  (forall k a b, I k a -> own_steps c a b -> I k b) /\
  (forall k st, (k < n)%nat -> at_work F g c q w f (counters k n) st -> I k st -> exists v, stands_at st w k v) /\
  (forall k st v i, (k < n)%nat -> at_work F g c q w f (counters k n) st -> I k st -> stands_at st w k v ->
     exists r st', calls f [P i (OVar v)] c st (Val r) st' /\ at_work F g c q w f (counters k n) st' /\ I (S k) st').
(** [fn] is the function foreach. *)
Definition is_foreach (st : state) (fn : fnval) (q : pieces) : Prop :=
  exists name modname fp body more ds, fn_code fn = CClosure name modname (fp :: body :: more) ds /\ asks_value st ds /\
    parameters st fp [$"container"; $"fcn"] /\ foreach_code st body q.
(** The names used by the function. *)
Definition foreach_names : list str := [$"__i"; $"max"; $"container"; $"fcn"].
(** In scope [s], whose global scope is [g], the function can be called. *)
Definition callable (F : funs) (st : state) (s g : sid) : Prop :=
  world F st g /\ (exists sc, scope_at st s = Some sc /\ s_global sc = g) /\ word_at st g g $"apply" /\ F $"apply" = None /\ Forall (tidy F) foreach_names.
(** The elements of a list, the characters of a text. *)
Definition iterable (v : value) : Prop := match v with ListV _ | TextV _ => True | _ => False end.
Definition elements (v : value) : list value :=
  match v with ListV vs => vs | TextV t => map (fun ch => TextV [ch]) t | _ => [] end.
Definition line (t : str) : str := t ++ [c_nl].

(** ** Programs *)
(** The function as a function of the language of programs; what apply means is not part of that language. *)
Definition foreach_loop : stm :=
  While (Prim $"<" [Name $"__i"; Name $"max"])
    (Block [Exp (Call $"apply" [Name $"fcn"; Prim $"list" [Prim $"nth" [Name $"__i"; Name $"container"]]]); Set_ $"__i" (Prim $"+" [Name $"__i"; Const (NumV 1)])]).
Definition foreach_body : stm := Block [Def $"__i" (Const (NumV 0)); Def $"max" (Prim $"len" [Name $"container"]); foreach_loop].
Definition foreach_def : fundef := ($"foreach", ([$"container"; $"fcn"], foreach_body)).
(** The functions of a program that starts with foreach. *)
Definition with_foreach (defs : list fundef) : funs := table (foreach_def :: defs).
Definition keeps_apart (defs : list fundef) : Prop := well_named (foreach_def :: defs) /\ Forall (fun d => ~ In (fst d) ($"apply" :: foreach_names)) defs.
