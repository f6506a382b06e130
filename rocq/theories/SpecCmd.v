(** Vocabulary for statements about the lines typed at the debugger's prompt.  Nothing here models code. *)
Require Import String Ascii List ZArith Bool Lia.
Require Import PArith FMapPositive.
From Verif Require Import Base CppString Num Token Value State Show ScopeOps Builtins Eval LispTop Debugger Cli SpecRun SpecVal SpecText SpecForm SpecDebug SpecCli SpecShow.
Import ListNotations.

(** ** What a line means *)
Definition starts (p w : str) : Prop := exists r, w = p ++ r.
(** Short forms: the line [w] means the command [c]. *)
Inductive short_for : str -> str -> Prop :=
| sf_exit : forall w, In w [$"quit"; $"q"; []] -> short_for w $"exit"
| sf_help : short_for $"h" $"help"
| sf_step : short_for $"s" $"step"
| sf_over : short_for $"v" $"over"
| sf_out : short_for $"o" $"out"
| sf_run : short_for $"r" $"run"
| sf_version : short_for $"ver" $"version"
| sf_stack : forall w, starts $"k" w -> short_for w $"stack"
| sf_code : forall w, starts $"c" w -> ~ starts $"clear" w -> short_for w $"code"
| sf_list : forall w, starts $"list" w \/ starts $"t" w -> short_for w $"list"
| sf_up : forall w, starts $"u" w -> short_for w $"up"
| sf_down : forall w, starts $"d" w -> ~ starts $"doc" w -> short_for w $"down"
| sf_locals : forall w, starts $"l" w -> ~ starts $"list" w -> short_for w $"locals"
| sf_globals : forall w, starts $"g" w -> short_for w $"globals".
(** The lines that are commands; every other line is code. *)
Definition a_command (w : str) : Prop :=
  In w [[]; $"exit"; $"quit"; $"q"; $"help"; $"h"; $"about"; $"funcs"; $"macros"; $"builtins"; $"modules"; $"stack"; $"step"; $"s"; $"over"; $"v"; $"out"; $"o";
        $"run"; $"r"; $"restart"; $"version"; $"ver"] \/
  (exists p, In p [$"doc"; $"searchdoc"; $"k"; $"c"; $"t"; $"break "; $"b "; $"u"; $"d"; $"l"; $"g"] /\ starts p w).

(** ** Fixed texts *)
Definition version_text : str :=
  [c_nl] ++ $"FUEL(isp) v0.99.6 (for C++) from 16.12.2023, (C) by Michael Neuroth" ++ [c_nl; c_nl].
Definition about_text : str := version_text ++ $"FUEL(isp) is a fast usable embeddable lisp interpreter" ++ [c_nl; c_nl].
(** The commands that help explains; a line of help has one of them in its first columns. *)
Definition explained : list str :=
  [$"(h)elp"; $"version"; $"about"; $"(c)ode"; $"stac(k)"; $"(u)p"; $"(d)own"; $"(r)un"; $"(s)tep"; $"o(v)er"; $"(o)ut"; $"(b)reak [module:]line [cond]"; $"clear [no]";
   $"lis(t)"; $"restart"; $"(l)ocals"; $"(g)lobals"; $"modules"; $"builtins"; $"funcs"; $"macros"; $"doc [function]"; $"searchdoc name"; $"exit"].
Definition explains (c line : str) : Prop := exists r, line = $"  " ++ padded (-29) c ++ $": " ++ r /\ r <> [] /\ ~ In c_nl r.
Definition help_text (t : str) : Prop :=
  exists ls, Forall2 explains explained ls /\ t = [c_nl] ++ $"help for interactive loop:" ++ [c_nl; c_nl] ++ flat_map (fun l => l ++ [c_nl]) ls ++ [c_nl].

(** ** Functions *)
(** The lines for those functions of a scope that are wanted. *)
Inductive functions_text (wanted : fnval -> Prop) (line : str -> fnval -> str -> Prop) : list (str * ptr) -> str -> Prop :=
| fx_end : functions_text wanted line [] []
| fx_internal : forall n p vs t, functions_text wanted line vs t -> functions_text wanted line (($"###" ++ n, p) :: vs) t
| fx_other : forall n i v vs t, (forall r, n <> $"###" ++ r) -> v_ty v <> TFun -> functions_text wanted line vs t -> functions_text wanted line ((n, P i (OVar v)) :: vs) t
| fx_unwanted : forall n i v f vs t, (forall r, n <> $"###" ++ r) -> v_ty v = TFun -> v_val v = Some (OFun f) -> ~ wanted f ->
    functions_text wanted line vs t -> functions_text wanted line ((n, P i (OVar v)) :: vs) t
| fx_shown : forall n i v f l vs t, (forall r, n <> $"###" ++ r) -> v_ty v = TFun -> v_val v = Some (OFun f) -> wanted f -> line n f l ->
    functions_text wanted line vs t -> functions_text wanted line ((n, P i (OVar v)) :: vs) (l ++ t).
Definition head_line (n : str) (f : fnval) : str := padded 20 n ++ $" --> " ++ padded (-40) ($"function " ++ fn_sig f) ++ $" : Function ".
Inductive builtin_line (n : str) (f : fnval) : str -> Prop :=
| bl_line : fine_text n -> fine_text (fn_sig f) -> builtin_line n f (head_line n f ++ [c_nl]).
(** The module of a function is shown; of code run by evalstr, the module in which that was. *)
Definition module_shown (m m' : str) : Prop :=
  (~ from_text m /\ m' = m) \/ (exists r, m = $"<evalstr>:" ++ m' ++ r /\ ~ In ":"%char m' /\ (r = [] \/ starts $":" r)).
Inductive function_line (n : str) (f : fnval) : str -> Prop :=
| fl_line : forall m, fine_text n -> fine_text (fn_sig f) -> fine_text m -> module_shown (fn_mod f) m ->
    function_line n f (head_line n f ++ $" : module=" ++ m ++ [c_nl]).
Inductive manual_line (n : str) (f : fnval) : str -> Prop :=
| ml_plain : fine_text n -> fine_text (fn_sig f) -> fn_doc f = [] -> manual_line n f (padded 20 n ++ $" --> " ++ fn_sig f ++ [c_nl])
| ml_doc : fine_text n -> fine_text (fn_sig f) -> fn_doc f <> [] -> fine_text (fn_doc f) ->
    manual_line n f (padded 20 n ++ $" --> " ++ fn_sig f ++ [c_nl] ++ padded 20 $" " ++ $"     " ++ fn_doc f ++ [c_nl]).
Definition built_in (f : fnval) : Prop := fn_bi f = true.

(** The first variable of that name. *)
Definition first_var (vs : list (str * ptr)) (n : str) (p : ptr) : Prop := exists a b, vs = a ++ (n, p) :: b /\ ~ In n (map fst a).
(** The functions of a scope and of the modules it imported. *)
Inductive all_functions (st : state) : sid -> str -> Prop :=
| af_alone : forall g sc t, scope_at st g = Some sc -> functions_text (fun _ => True) function_line (s_vars sc) t -> ~ In $"###modules###" (map fst (s_vars sc)) ->
    all_functions st g t
| af_modules : forall g sc t i m ms t', scope_at st g = Some sc -> functions_text (fun _ => True) function_line (s_vars sc) t ->
    first_var (s_vars sc) $"###modules###" (P i (OScope m)) -> scope_at st m = Some ms -> of_modules st (s_vars ms) t' -> all_functions st g (t ++ t')
with of_modules (st : state) : list (str * ptr) -> str -> Prop :=
| om_end : of_modules st [] []
| om_more : forall n i s vs t t', all_functions st s t -> of_modules st vs t' -> of_modules st ((n, P i (OScope s)) :: vs) (t ++ t').

(** ** States used by the examples *)
(** Stopped in function f with nothing more to stop at. *)
Definition resting (inp : list str) : state := with_dbg (Dbg [] false StopAlways []) (looking inp).
(** With a scope that has two macros and a module. *)
Definition some_state : state :=
  with_scopes (PositiveMap.add 4%positive (Scope [($"inc", P 1%positive (OMacro true [] [])); ($"twice", P 1%positive (OMacro true [] []))] $"macros" [] main_sid None None None false false false false None None None [])
    (PositiveMap.add 3%positive (Scope [($"###macros###", P 2%positive (OScope 4%positive)); ($"###modules###", P 3%positive (OScope 5%positive)); ($"x", P 84%positive (OVar (vint 5)))] [] [] 3%positive None None None false false false false None None None [])
    (PositiveMap.add 5%positive (Scope [($"m.fuel", P 4%positive (OScope 2%positive))] $"modules" [] main_sid None None None false false false false None None None [])
    (st_scopes (resting [$"macros"; $"run"]))))) (resting [$"macros"; $"run"]).
