(** Vocabulary for statements about running the text of a script and reading printed values back.  Nothing here models code. *)
Require Import String Ascii List ZArith Bool Lia.
Require Import PArith FMapPositive.
From Verif Require Import Base CppString Num Token Value State Builtins Eval LispTop SpecLex SpecParse SpecRun SpecVal SpecNum SpecList SpecForm SpecMacro.
Import ListNotations.

(** ** From text to code *)
(** The value a token stands for in the code. *)
Definition atom_read (k : toktype * tokval) (w : variant) : Prop :=
  v_unq w = UnqNone /\
  match k with
  | (TkInt, TvInt z) => is_int w z
  | (TkDouble, TvDouble d) => is_dbl w d
  | (TkTrue, TvBool b) | (TkFalse, TvBool b) => is_bool w b
  | (TkSymbol, TvStr t) => is_sym w t
  | (TkString, TvStr t) => is_str w t
  | (TkNil, _) => v_ty w = TNil
  | _ => False
  end.
(** The code is the datum, atom by atom. *)
Inductive read_as : datum -> code -> Prop :=
| ra_atom : forall k w, atom_read k w -> read_as (DAtom k) (CAtom w)
| ra_list : forall ds ts, reads_as ds ts -> read_as (DList ds) (CList ts)
with reads_as : list datum -> list code -> Prop :=
| rs_nil : reads_as [] []
| rs_cons : forall d ds t ts, read_as d t -> reads_as ds ts -> reads_as (d :: ds) (t :: ts).
(** The datum a script is read as: its expressions in a do. *)
Definition script_datum (l : list expr) : datum := DList (DAtom (TkSymbol, TvStr $"do") :: map datum_of l).
(** The interpreter with the data about the script stored in its main scope. *)
Definition entered (st : state) (tracing : bool) (modname : str) (ts : list token) : state :=
  match scope_at st main_sid with
  | Some sc => with_scopes (PositiveMap.add main_sid (set_tokens ts (set_tracing tracing (set_module modname sc))) (st_scopes st)) st
  | None => st
  end.

(** ** Values that can be read back *)
(** A text that can stand between double quotes as it is. *)
Definition bare_text (t : str) : Prop := forallb (fun c => is_7bit c && negb (Ascii.eqb c c_dquote) && negb (Ascii.eqb c c_bslash)) t = true.
Definition readable_atom (v : variant) : Prop :=
  (exists z, is_int v z /\ fits z) \/ (exists b, is_bool v b) \/ (exists t, is_sym v t /\ symbol_text t) \/ (exists t, is_str v t /\ bare_text t).
(** 32-bit integers, booleans, symbols, texts and lists of such values. *)
Fixpoint readable (t : code) : Prop :=
  match t with
  | CAtom v => readable_atom v
  | CList ts => (fix go (ts : list code) : Prop := match ts with [] => True | t :: ts' => readable t /\ go ts' end) ts
  end.
(** ... not a text itself. *)
Definition no_text (t : code) : Prop := match t with CAtom v => v_ty v <> TString | CList _ => True end.
(** Only integers, booleans and lists. *)
Fixpoint plain_data (t : code) : Prop :=
  match t with
  | CAtom v => (exists z, is_int v z /\ fits z) \/ (exists b, is_bool v b)
  | CList ts => (fix go (ts : list code) : Prop := match ts with [] => True | t :: ts' => plain_data t /\ go ts' end) ts
  end.
(** How a value is written: texts inside lists in double quotes. *)
Definition written_atom (v : variant) : str := match v_ty v with TString => [c_dquote] ++ atom_text v ++ [c_dquote] | _ => atom_text v end.
Fixpoint written (t : code) : str :=
  match t with
  | CAtom v => written_atom v
  | CList ts => $"(" ++ (fix go (ts : list code) : str :=
      match ts with [] => [] | [t] => written t | t :: ts' => written t ++ $" " ++ go ts' end) ts ++ $")"
  end.
(** The value is the tree; a list inside a list may be stored directly, as in code, or as a value, as functions make it. *)
Inductive data_at (st : state) : ptr -> code -> Prop :=
| dt_atom : forall i v, v_ty v <> TList -> data_at st (P i (OVar v)) (CAtom v)
| dt_code : forall i l ps ts, vec_at st l = Some ps -> datas_at st ps ts -> data_at st (P i (OList l)) (CList ts)
| dt_list : forall i v l ps ts, is_list_at st v l ps -> datas_at st ps ts -> data_at st (P i (OVar v)) (CList ts)
with datas_at (st : state) : list ptr -> list code -> Prop :=
| dts_nil : datas_at st [] []
| dts_cons : forall p ps t ts, data_at st p t -> datas_at st ps ts -> datas_at st (p :: ps) (t :: ts).
Definition is_data (st : state) (v : variant) (t : code) : Prop :=
  match t with
  | CAtom w => v = w
  | CList ts => exists l es, is_list_at st v l es /\ datas_at st es ts
  end.
(** The same data, wherever in a source it came from. *)
Inductive same_code : code -> code -> Prop :=
| sc_atom : forall v w, v_ty w = v_ty v -> v_val w = v_val v -> same_code (CAtom v) (CAtom w)
| sc_list : forall ts us, same_codes ts us -> same_code (CList ts) (CList us)
with same_codes : list code -> list code -> Prop :=
| ss_nil : same_codes [] []
| ss_cons : forall t ts u us, same_code t u -> same_codes ts us -> same_codes (t :: ts) (u :: us).
(** The main scope has the function a fresh interpreter knows under the name, and there is no macro of this name. *)
Definition knows (st : state) (name : str) : Prop :=
  no_macro st main_sid name /\ exists i v f, builtin_fn name = Some f /\ var_at st main_sid name = Some (P i (OVar v)) /\ is_fn v f.
(** The interpreter is ready for a script that quotes: its main scope has the usual meaning of do and quote, and
    no script is in the middle of a return. *)
Definition can_quote (st : state) : Prop :=
  heap_numbered st /\ (exists sc, scope_at st main_sid = Some sc /\ s_global sc = main_sid /\ s_inret sc = false) /\ knows st $"do" /\ knows st $"quote".
(** No global variable and no macro has a name that is the text of a number, a boolean or a list. *)
Definition word_names (st : state) : Prop :=
  forall name, (exists z, name = z_to_string z) \/ name = $"#t" \/ name = $"#f" \/ (exists r, name = c_lpar :: r) -> inert st main_sid name.
