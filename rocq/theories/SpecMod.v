(** Vocabulary for statements about computed names of definitions and about import.  Nothing here models code. *)
Require Import String Ascii List ZArith Bool Lia.
Require Import PArith FMapPositive.
From Verif Require Import Base CppString Num Token Value State Builtins Eval LispTop SpecRun SpecVal SpecList SpecForm SpecCall SpecIo.
Import ListNotations.

(** ** Definitions *)
(** What stands at the place of the name: a value is taken as it is, an expression is evaluated. *)
Inductive name_given (s : sid) : ptr -> state -> variant -> state -> Prop :=
| ng_value : forall i w st, name_given s (P i (OVar w)) st w st
| ng_computed : forall i l st w st1, evals (P i (OList l)) s st (Val (Some w)) st1 -> name_given s (P i (OList l)) st w st1.
(** The words that define a variable, and the scope in which they do it. *)
Inductive defines_in (st : state) (s : sid) : str -> sid -> Prop :=
| di_own : scope_exists st s -> defines_in st s $"def" s
| di_global : forall sc, scope_at st s = Some sc -> defines_in st s $"gdef" (s_global sc).

(** ** Import *)
(** File names are written with slashes. *)
Definition slashes (t : str) : str := map (fun c => if ascii_dec c (ascii_of_nat 92) then "/"%char else c) t.
(** The extension is added unless it is there. *)
Inductive extended : str -> str -> Prop :=
| ex_there : forall a, extended (a ++ $".fuel") (a ++ $".fuel")
| ex_added : forall n, (forall a, n <> a ++ $".fuel") -> extended n (n ++ $".fuel").
(** The files tried for a module, in this order: the name itself, then with extension in the library directory,
    in ./Library, in ./lib/fuel, and in the directory of the environment variable FUELPATH if it is set. *)
Inductive tried (e : env) (org : str) : list str -> Prop :=
| tr_files : forall a b c, e_fuelpath e = None -> extended (e_libpath e ++ $"/" ++ org) a -> extended ($"./Library/" ++ org) b -> extended ($"./lib/fuel/" ++ org) c ->
    tried e org [org; a; b; c]
| tr_files_path : forall p a b c d, e_fuelpath e = Some p -> extended (e_libpath e ++ $"/" ++ org) a -> extended ($"./Library/" ++ org) b -> extended ($"./lib/fuel/" ++ org) c ->
    extended (p ++ $"/" ++ org) d -> tried e org [org; a; b; c; d].
(** The file with this name has the content; None: there is no such file. *)
Definition content (st : state) (n : str) (t : option str) : Prop := exists m, system_name n m /\ file_at st m = t.
(** The first of the files that exists, with its content. *)
Inductive first_file (st : state) : list str -> str -> str -> Prop :=
| ff_here : forall n t ns, content st n (Some t) -> first_file st (n :: ns) n t
| ff_next : forall n ns m t, content st n None -> first_file st ns m t -> first_file st (n :: ns) m t.
(** The scope in which a module runs: empty, its module is the file, it is called from scope [s]. *)
Definition import_scope (file : str) (g s : sid) : scope :=
  Scope [] ($"import " ++ file) file g None (Some s) None false false false false None None None [].
(** The new scope [i], as the next one of scope [s]; nothing else has changed. *)
Definition import_opened (st st1 : state) (s i : sid) (file : str) : Prop :=
  exists sc, scope_at st s = Some sc /\ scope_at st i = None /\ scope_at st1 i = Some (import_scope file (s_global sc) s) /\ scope_at st1 s = Some (set_next (Some i) sc) /\
    (forall u, u <> i -> u <> s -> scope_at st1 u = scope_at st u) /\ st_vecs st1 = st_vecs st /\ st_dicts st1 = st_dicts st /\ st_out st1 = st_out st /\ st_in st1 = st_in st /\
    st_files st1 = st_files st /\ st_env st1 = st_env st.
(** A copy [c] of scope [i] is now the module of that name; the scopes [i] and [s] are not linked any more; nothing else has changed. *)
Definition import_closed (st st1 : state) (s i : sid) (file : str) : Prop :=
  exists sc isc g gi ms msc c k, scope_at st s = Some sc /\ s_global sc = g /\ scope_at st i = Some isc /\ var_at st g $"###modules###" = Some (P gi (OScope ms)) /\ scope_at st ms = Some msc /\
    scope_at st c = None /\ scope_at st1 c = Some isc /\ var_at st1 ms file = Some (P k (OScope c)) /\ (forall n, n <> file -> var_at st1 ms n = var_at st ms n) /\
    scope_at st1 s = Some (set_next None sc) /\ scope_at st1 i = Some (set_prev None isc) /\
    (forall u, u <> c -> u <> ms -> u <> s -> u <> i -> scope_at st1 u = scope_at st u) /\ (exists msc1, scope_at st1 ms = Some msc1 /\ same_scope msc msc1) /\
    st_vecs st1 = st_vecs st /\ st_dicts st1 = st_dicts st /\ st_out st1 = st_out st /\ st_in st1 = st_in st /\ st_files st1 = st_files st /\ st_env st1 = st_env st.
(** Scope [ms] holds the modules; it is none of the scopes in which something runs. *)
Definition modules_in (st : state) (g ms : sid) : Prop :=
  exists gi, var_at st g $"###modules###" = Some (P gi (OScope ms)) /\ scope_exists st ms.
(** A text as an expression. *)
Definition str_ (i : positive) (t : str) : ptr := P i (OVar (vstr t)).
(** Two files, and code of some definitions in the heap of a fresh interpreter. *)
Definition mod_text : str := $"(do (def counter 0) (defn inc () (setf counter (+ counter 1))))".
Definition mod_st : state := with_code
  [(71%positive, [sym_ 71 $"def"; str_ 72 $"x"; int_ 73 3]);
   (72%positive, [sym_ 71 $"def"; code_ 72 73; int_ 73 3]);
   (73%positive, [sym_ 71 $"+"; str_ 72 $"a"; str_ 73 $"b"]);
   (74%positive, [sym_ 71 $"gdef"; int_ 72 1; int_ 73 3]);
   (75%positive, [sym_ 71 $"def"; code_ 72 76; int_ 73 3]);
   (76%positive, [sym_ 71 $"nofunction"])]
  (init_state [] [($"./Library/m.fuel", mod_text); ($"empty", [])] (Env (fun _ => true) None $"/lib")).
