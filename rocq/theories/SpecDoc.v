(** Vocabulary for statements about the documentation of functions.  Nothing here models code. *)
Require Import String Ascii List ZArith Bool.
From Verif Require Import Base CppString Value State SpecRun SpecVal SpecForm.
Import ListNotations.

(** The name shown for a function with the given signature.  The blank behind the name is shown, too. *)
Inductive title : str -> str -> Prop :=
| ti_blank : forall w r, ~ In c_space w -> title ($"(" ++ w ++ $" " ++ r) (w ++ $" ")
| ti_closed : forall w r, ~ In c_space (w ++ r) -> ~ In ")"%char w -> title ($"(" ++ w ++ $")" ++ r) w
| ti_open : forall w, ~ In c_space w -> ~ In ")"%char w -> title ($"(" ++ w) w
| ti_none : forall t, (forall r, t <> $"(" ++ r) -> title t $"???".
Definition dashes : str := repeat "-"%char 49.
Definition gap : str := [c_nl; c_nl].
Definition remark (f : fnval) : str := if fn_sp f then $" [special form]" else [].
Definition explained (f : fnval) : str := match fn_doc f with [] => $">not available<" | d => d end.
(** The entry of a function as plain text and for a browser. *)
Definition entry_of (f : fnval) (t : str) : Prop :=
  exists n, title (fn_sig f) n /\ t = dashes ++ gap ++ n ++ remark f ++ gap ++ $"Syntax: " ++ fn_sig f ++ gap ++ explained f ++ gap ++ [c_nl].
Definition title_html (sig n : str) : Prop := (exists m, title sig m /\ n = $"<b>" ++ m ++ $"</b>" /\ exists r, sig = $"(" ++ r) \/ ((forall r, sig <> $"(" ++ r) /\ n = $"???").
Definition html_of (f : fnval) (t : str) : Prop :=
  exists n, title_html (fn_sig f) n /\ t = $"<hr><br>" ++ n ++ remark f ++ $"<br><br><code>Syntax: " ++ fn_sig f ++ $"</code><br><br>" ++ explained f ++ $"<br><br>" ++ [c_nl].

(** The variables of a scope in the order of their names; [sel] says which names are wanted. *)
Inductive listing (sel : str -> Prop) : list (str * ptr) -> list str -> Prop :=
| lg_nil : listing sel [] []
| lg_skip : forall n p vs ts, ~ sel n -> listing sel vs ts -> listing sel ((n, p) :: vs) ts
| lg_take : forall n i v f t vs ts, sel n -> is_fn v f -> entry_of f t -> listing sel vs ts -> listing sel ((n, P i (OVar v)) :: vs) (t :: ts).
Definition starts_with (n k : str) : Prop := exists r, k = n ++ r.
Definition has_inside (n k : str) : Prop := exists a r, k = a ++ n ++ r.
(** The built-in functions among the variables. *)
Inductive overview (entry : fnval -> str -> Prop) : list (str * ptr) -> list str -> Prop :=
| ov_nil : overview entry [] []
| ov_internal : forall n p vs ts, starts_with $"###" n -> overview entry vs ts -> overview entry ((n, p) :: vs) ts
| ov_value : forall n i v vs ts, ~ starts_with $"###" n -> v_ty v <> TFun -> overview entry vs ts -> overview entry ((n, P i (OVar v)) :: vs) ts
| ov_own : forall n i v f vs ts, ~ starts_with $"###" n -> is_fn v f -> fn_bi f = false -> overview entry vs ts -> overview entry ((n, P i (OVar v)) :: vs) ts
| ov_builtin : forall n i v f t vs ts, ~ starts_with $"###" n -> is_fn v f -> fn_bi f = true -> entry f t -> ~ In "{"%char t -> overview entry vs ts ->
    overview entry ((n, P i (OVar v)) :: vs) (t :: ts).
Definition ended (t : str) : str := t ++ [c_nl].
(** The two functions that search, and which names they want. *)
Definition searches (name : str) (wanted : str -> str -> Prop) : Prop := (name = $"doc" /\ wanted = starts_with) \/ (name = $"searchdoc" /\ wanted = has_inside).
(** A text or a quoted symbol. *)
Definition word_arg (p : ptr) (t : str) : Prop := exists i v, p = P i (OVar v) /\ (is_str v t \/ is_sym v t).
(** The macros of the program. *)
Definition macros_are (st : state) (s : sid) (ms : list (str * ptr)) : Prop :=
  exists sc i m msc, scope_at st s = Some sc /\ scope_exists st (s_global sc) /\ var_at st (s_global sc) $"###macros###" = Some (P i (OScope m)) /\ scope_at st m = Some msc /\ s_vars msc = ms.
Definition html_page (body : str) : str :=
  concat (map ended [$"<html>"; $"<head>"; $"<title>"; $"Documentation of fuel language"; $"</title>"; $"</head>";
    $"<h2>Documentation of builtin functions of the fuel language:</h2>"; $"<body>"]) ++ body ++ concat (map ended [$"</body>"; $"</html>"]).
