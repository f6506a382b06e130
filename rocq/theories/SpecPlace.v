(** Vocabulary for statements about the place an error names.  Nothing here models code. *)
Require Import String Ascii List ZArith Bool Lia.
From Verif Require Import Base CppString Num Token Value State SpecRun SpecVal SpecForm SpecParse SpecShow.
Import ListNotations.

(** The position of a token, as far as it fits into 32 bits; -1 stands for no token. *)
Definition position_of (i : errinfo) (t : option token) : Prop :=
  match t with
  | Some k => ei_line i = stored_int (tk_line k) /\ ei_start i = stored_int (tk_start k) /\ ei_stop i = stored_int (tk_stop k)
  | None => ei_line i = (-1)%Z /\ ei_start i = (-1)%Z /\ ei_stop i = (-1)%Z
  end.
(** The error names the module of scope [s], the token evaluated there last and the frames down from it, none of them marked. *)
Definition names_place (st : state) (s : sid) (i : errinfo) : Prop :=
  exists sc, scope_at st s = Some sc /\ ei_module i = s_module sc /\ position_of i (s_token sc) /\ exists d, stack_text st 0 s d (ei_stack i).
