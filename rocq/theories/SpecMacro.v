(** Vocabulary for statements about code as data: quoting and macros.  Nothing here models code. *)
Require Import String Ascii List ZArith Bool Lia.
Require Import PArith FMapPositive.
From Verif Require Import Base CppString Num Token Value State Builtins Eval LispTop SpecRun SpecVal SpecList SpecForm.
Import ListNotations.

(** ** Code as a tree *)
Inductive code := CAtom (v : variant) | CList (ts : list code).
(** The pointer refers to the tree. *)
Inductive code_at (st : state) : ptr -> code -> Prop :=
| ca_atom : forall i v, code_at st (P i (OVar v)) (CAtom v)
| ca_list : forall i l ps ts, vec_at st l = Some ps -> codes_at st ps ts -> code_at st (P i (OList l)) (CList ts)
with codes_at (st : state) : list ptr -> list code -> Prop :=
| cs_nil : codes_at st [] []
| cs_cons : forall p ps t ts, code_at st p t -> codes_at st ps ts -> codes_at st (p :: ps) (t :: ts).
(** Atoms as the parser makes them: symbols, strings, numbers, booleans, nil. *)
Definition parsed_atom (v : variant) : Prop :=
  (exists t, is_sym v t) \/ (exists t, is_str v t) \/ (exists z, is_int v z) \/ (exists d, is_dbl v d) \/ (exists b, is_bool v b) \/ v_ty v = TNil.
Fixpoint parsed (t : code) : Prop :=
  match t with
  | CAtom v => parsed_atom v
  | CList ts => (fix go (ts : list code) : Prop := match ts with [] => True | t :: ts' => parsed t /\ go ts' end) ts
  end.
(** The text of a tree, the elements of a list separated by blanks (no blank after an empty text at the start). *)
Definition add_word (acc w : str) : str := match acc with [] => w | _ => acc ++ $" " ++ w end.
Definition atom_text (v : variant) : str :=
  match v_ty v, v_val v with
  | TSym, Some (OString t) => t
  | TString, Some (OString t) => t
  | TInt, Some (OInt z) => z_to_string z
  | TDouble, Some (ODouble d) => f_to_string d
  | TBool, Some (OBool b) => if b then $"#t" else $"#f"
  | _, _ => $"NIL"
  end.
Fixpoint code_text (t : code) : str :=
  match t with
  | CAtom v => atom_text v
  | CList ts => $"(" ++ (fix go (acc : str) (ts : list code) : str := match ts with [] => acc | t :: ts' => go (add_word acc (code_text t)) ts' end) [] ts ++ $")"
  end.

(** ** Expansion of macros before evaluation *)
Definition expands (p : ptr) (s : sid) (st : state) (o : out ptr) (st' : state) : Prop := ends_with (fun n => r_expand (run n) p s) st o st'.
(** A name under which nothing happens at expansion: its own variable in the scope, if any, is a function that is
    not run at expansion, and it names no macro that is expanded before evaluation. *)
Definition quiet (st : state) (s : sid) (name : str) : Prop :=
  scope_exists st s /\ var_at st s name = None \/
  exists i v f, var_at st s name = Some (P i (OVar v)) /\ is_fn v f /\ fn_ex f = false.
Definition inert (st : state) (s : sid) (name : str) : Prop :=
  quiet st s name /\
  (var_at st s $"###macros###" = None \/
   exists i ms, var_at st s $"###macros###" = Some (P i (OScope ms)) /\ scope_exists st ms /\
     (var_at st ms name = None \/ exists j formals body, var_at st ms name = Some (P j (OMacro true formals body)))).
(** ... for the texts at the heads of all lists. *)
Fixpoint macro_free (st : state) (s : sid) (t : code) : Prop :=
  match t with
  | CAtom _ => True
  | CList [] => True
  | CList (h :: ts) => inert st s (code_text h) /\ macro_free st s h /\
      (fix go (ts : list code) : Prop := match ts with [] => True | t :: ts' => macro_free st s t /\ go ts' end) ts
  end.
(** nil as an element of a list becomes the empty list. *)
Definition is_nil_atom (t : code) : bool := match t with CAtom v => ltype_eqb (v_ty v) TNil | CList _ => false end.
Fixpoint nil_emptied (t : code) : code :=
  match t with
  | CAtom v => CAtom v
  | CList ts => CList (map (fun t => if is_nil_atom t then CList [] else nil_emptied t) ts)
  end.
Fixpoint no_nil (t : code) : Prop :=
  match t with
  | CAtom v => v_ty v <> TNil
  | CList ts => (fix go (ts : list code) : Prop := match ts with [] => True | t :: ts' => no_nil t /\ go ts' end) ts
  end.

(** ** Replacing the parameters of a macro *)
(** Every atom with the text [x] as value (a symbol or a string literal) is replaced by [a]. *)
Definition names_atom (x : str) (v : variant) : bool := match v_val v with Some (OString t) => if list_eq_dec ascii_dec x t then true else false | _ => false end.
Fixpoint subst (x : str) (a : code) (t : code) : code :=
  match t with
  | CAtom v => if names_atom x v then a else t
  | CList ts => CList (map (subst x a) ts)
  end.
(** One parameter after the other. *)
Definition subst_all (xs : list str) (ars : list code) (ts : list code) : list code :=
  fold_left (fun ts xa => map (subst (fst xa) (snd xa)) ts) (combine xs ars) ts.
(** The text does not occur as an atom. *)
Fixpoint mentions (x : str) (t : code) : bool :=
  match t with
  | CAtom v => names_atom x v
  | CList ts => existsb (mentions x) ts
  end.
(** Every atom holds a value (all atoms of program text do). *)
Fixpoint valued (t : code) : Prop :=
  match t with
  | CAtom v => v_val v <> None
  | CList ts => (fix go (ts : list code) : Prop := match ts with [] => True | t :: ts' => valued t /\ go ts' end) ts
  end.

(** ** Quoting *)
(** The value is the tree: an atom itself, or a list of the elements. *)
Definition holds (st : state) (v : variant) (t : code) : Prop :=
  match t with
  | CAtom w => v = w
  | CList ts => exists l es, is_list_at st v l es /\ codes_at st es ts
  end.
(** The name of the tree's head, if it is a symbol. *)
Definition is_unquote (t : code) : bool :=
  match t with
  | CAtom v => match v_ty v with TSym => names_atom $"_unquote" v || names_atom $"_unquotesplicing" v | _ => false end
  | CList _ => false
  end.
(** Nothing to fill in: no symbol _unquote or _unquotesplicing anywhere. *)
Fixpoint no_unquote (t : code) : bool :=
  match t with
  | CAtom _ => negb (is_unquote t)
  | CList ts => forallb no_unquote ts
  end.
(** The value with the mark that unquote or unquote-splicing leaves. *)
Definition marked (u : unqm) (v : variant) : variant := MkVar (v_ty v) (v_val v) u (v_tok v).
(** A list, a symbol other than the two, or an atom that is no symbol. *)
Definition ordinary_head (h : ptr) : Prop :=
  (exists i l, h = P i (OList l)) \/ (exists i v, h = P i (OVar v) /\ v_ty v <> TSym) \/
  (exists name, expr_sym h name /\ name <> $"_unquote" /\ name <> $"_unquotesplicing").
(** What a part of a template is replaced by, from left to right: atoms stay, (_unquote e) becomes the value of e,
    (_unquotesplicing e) the elements of the value of e, any other list of two elements stays as it is, and in
    longer and shorter lists the elements are treated in this way. *)
Inductive filled (s : sid) : ptr -> state -> list ptr -> state -> Prop :=
| fi_atom : forall i v st, filled s (P i (OVar v)) st [P i (OVar v)] st
| fi_unquote : forall i l h e v st st1 q st2, vec_at st l = Some [h; e] -> expr_sym h $"_unquote" ->
    evals e s st (Val (Some v)) st1 -> boxed (marked UnqUnquote v) st1 q st2 -> filled s (P i (OList l)) st [q] st2
| fi_splice : forall i l h e v st st1 q st2 l' es, vec_at st l = Some [h; e] -> expr_sym h $"_unquotesplicing" ->
    evals e s st (Val (Some v)) st1 -> is_list_at st1 v l' es -> boxed (marked UnqSplice v) st1 q st2 -> filled s (P i (OList l)) st es st2
| fi_pair : forall i l h e st q st1, vec_at st l = Some [h; e] -> ordinary_head h ->
    new_list_ptr [h; e] st = (Val q, st1) -> filled s (P i (OList l)) st [q] st1
| fi_list : forall i l es st qs st1 q st2, vec_at st l = Some es -> length es <> 2%nat -> fills s es st qs st1 ->
    new_list_ptr qs st1 = (Val q, st2) -> filled s (P i (OList l)) st [q] st2
with fills (s : sid) : list ptr -> state -> list ptr -> state -> Prop :=
| fs_nil : forall st, fills s [] st [] st
| fs_cons : forall p ps st qs st1 rs st2, filled s p st qs st1 -> fills s ps st1 rs st2 -> fills s (p :: ps) st (qs ++ rs) st2.
(** What the pointer stands for as a value. *)
Definition value_at (q : ptr) (v : variant) : Prop := (exists i, q = P i (OVar v)) \/ (exists i l, q = P i (OList l) /\ v = mkv TList (OList l)).
(** Not of the form (_unquotesplicing e). *)
Definition not_spliced_at (st : state) (x : ptr) : Prop := forall i l h e, x = P i (OList l) -> vec_at st l = Some [h; e] -> ~ expr_sym h $"_unquotesplicing".
(** The names of the parameters. *)
Definition symbols (formals : list ptr) (xs : list str) : Prop := Forall2 expr_sym formals xs.
(** Scope [s] knows a macro of the given kind under the name. *)
Definition macro_at (st : state) (s : sid) (name : str) (at_run_time : bool) (formals body : list ptr) : Prop :=
  exists i ms j, var_at st s $"###macros###" = Some (P i (OScope ms)) /\ var_at st ms name = Some (P j (OMacro at_run_time formals body)).
(** The call of a macro with enough arguments, without macros in the arguments; [ts] is the body, [ars] the arguments. *)
Definition macro_use (st : state) (s : sid) (l : loc) (th : code) (xs : list str) (formals body : list ptr) (ts ars : list code) : Prop :=
  exists h rest, vec_at st l = Some (h :: rest) /\ code_at st h th /\ parsed th /\ symbols formals xs /\
    codes_at st body ts /\ Forall valued ts /\ existsb (mentions $"quoted-macro-args") ts = false /\
    codes_at st rest ars /\ Forall parsed ars /\ Forall valued ars /\ Forall (macro_free st s) ars.

(** ** Used by the examples *)
(** After two macros were defined, with the code of some expressions in the heap:
    (m (+ 1 2) b), (+ 1 2), (e 3 b), (list nil 4), (quote (1 (2 x))), (eval (quote (+ 1 2))), (quasiquote (1 2 (_unquote b))). *)
Definition macro_st : state := with_nloc 100 (with_code
  [(81%positive, [sym_ 71 $"m"; code_ 72 82; sym_ 73 $"b"]);
   (82%positive, [sym_ 74 $"+"; int_ 75 1; int_ 76 2]);
   (83%positive, [sym_ 71 $"e"; int_ 72 3; sym_ 73 $"b"]);
   (84%positive, [sym_ 71 $"list"; P 72 (OVar (mkv TNil (OString $"nil"))); int_ 73 4]);
   (85%positive, [sym_ 71 $"quote"; code_ 72 86]);
   (86%positive, [int_ 71 1; code_ 72 87]);
   (87%positive, [int_ 71 2; sym_ 72 $"x"]);
   (88%positive, [sym_ 71 $"eval"; code_ 72 89]);
   (89%positive, [sym_ 71 $"quote"; code_ 72 82]);
   (90%positive, [sym_ 71 $"quasiquote"; code_ 72 91]);
   (91%positive, [int_ 71 1; int_ 72 2; code_ 73 92]);
   (92%positive, [sym_ 71 $"_unquote"; sym_ 72 $"b"]);
   (93%positive, [sym_ 71 $"quasiquote"; code_ 72 86])]
  (snd (eval_script 40 false false $"(do (def b 10) (define-macro-expand e (x y) '(+ x y)) (define-macro-eval m (x y) (list y (list x y))))" [] fresh))).
