(** Vocabulary for statements about files, printing and conversions.  Nothing here models code. *)
Require Import String Ascii List ZArith Bool Lia.
Require Import PArith FMapPositive.
From Verif Require Import Base CppString Num Token Value State Builtins Eval LispTop SpecLex SpecRun SpecVal SpecNum SpecList SpecForm.
Import ListNotations.

(** ** Files *)
(** The content of a file, if it exists. *)
Definition file_at (st : state) (name : str) : option str :=
  option_map snd (List.find (fun kv => if list_eq_dec ascii_dec name (fst kv) then true else false) (st_files st)).
(** File [name] now has the content; nothing else has changed. *)
Definition file_becomes (st st' : state) (name text : str) : Prop :=
  file_at st' name = Some text /\ (forall m, m <> name -> file_at st' m = file_at st m) /\
  st_scopes st' = st_scopes st /\ st_vecs st' = st_vecs st /\ st_dicts st' = st_dicts st /\ st_out st' = st_out st /\
  st_in st' = st_in st /\ st_env st' = st_env st /\ st_dbg st' = st_dbg st.
(** The operating system sees a name up to its first NUL byte. *)
Inductive system_name : str -> str -> Prop :=
| sn_all : forall n, ~ In c_nul n -> system_name n n
| sn_cut : forall n m, ~ In c_nul n -> system_name (n ++ c_nul :: m) n.
(** The environment lets the program write the file. *)
Definition writable (st : state) (name : str) : Prop := e_canwrite (st_env st) name = true.

(** ** Printing *)
(** Texts with blanks between them; empty texts at the front leave no blank. *)
Fixpoint blanks_between (ts : list str) : str :=
  match ts with
  | [] => []
  | [t] => t
  | t :: ts' => t ++ c_space :: blanks_between ts'
  end.
Fixpoint without_front (ts : list str) : list str := match ts with [] :: ts' => without_front ts' | _ => ts end.
Definition line_of (ts : list str) : str := blanks_between (without_front ts).
(** [t] is the text str makes of the argument (no dictionary). *)
Definition shows (s : sid) (st : state) (p : ptr) (t : str) : Prop :=
  exists i v, p = P i (OVar v) /\ v_ty v <> TNative /\ builtin_pure $"str" [p] s st (fun r => is_str r t).
(** The output has grown by the text; nothing else has changed. *)
Definition written_out (st : state) (t : str) : state := with_out (st_out st ++ t) st.
(** The scope collects what is printed: it has the trace variables (their values do not matter). *)
Definition collects (st : state) (s : sid) (b : str) : Prop :=
  (exists i o, var_at st s $"###traceon###" = Some (P i o)) /\ (exists j, var_at st s $"###tracebuffer###" = Some (P j (OString b))).
(** The output has grown by [t] and the collected text of [s] is now [b]; nothing else has changed. *)
Definition collected (st st' : state) (s : sid) (b t : str) : Prop :=
  (exists j, var_at st' s $"###tracebuffer###" = Some (P j (OString b))) /\
  (forall u n, (u, n) <> (s, $"###tracebuffer###") -> var_at st' u n = var_at st u n) /\
  (forall u, u <> s -> scope_at st' u = scope_at st u) /\
  (forall a c, scope_at st s = Some a -> scope_at st' s = Some c -> same_scope a c) /\
  st_out st' = st_out st ++ t /\ st_vecs st' = st_vecs st /\ st_dicts st' = st_dicts st /\ st_in st' = st_in st /\
  st_files st' = st_files st /\ st_env st' = st_env st /\ st_dbg st' = st_dbg st.

(** ** Conversions *)
(** The text is an integer that fits into 32 bits, possibly after blanks. *)
Definition integer_text (t : str) (z : Z) : Prop :=
  exists ws w, t = ws ++ w /\ forallb is_space ws = true /\ int_text w z /\ fits z.
Definition is_undef (r : variant) : Prop := v_ty r = TUndef.
