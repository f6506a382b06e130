(** Vocabulary for statements about what the debugger shows.  Nothing here models code. *)
Require Import String Ascii List ZArith Bool Lia.
Require Import PArith FMapPositive.
From Verif Require Import Base CppString Num Token Value State Show ScopeOps Builtins Eval LispTop Debugger Cli SpecRun SpecVal SpecText SpecForm SpecDebug SpecCli.
Import ListNotations.

(** ** The program *)
(** The listing of the lines of module [m] from number [no] on, where line [now] is the current one. *)
Inductive listed (bps : list bpoint) (m : str) (now : Z) : Z -> list str -> str -> Prop :=
| li_end : forall no, listed bps m now no [] []
| li_line : forall no l ls mark arrow t,
    (mark = $"B " /\ (exists b, In b bps /\ covers b no m)) \/ (mark = $"  " /\ none_covering bps no m) ->
    (arrow = $"-->" /\ no = now) \/ (arrow = $"   " /\ no <> now) ->
    listed bps m now (no + 1) ls t ->
    listed bps m now no (l :: ls) (padded 3 (z_to_string no) ++ $" " ++ mark ++ $" " ++ arrow ++ $" " ++ l ++ [c_nl] ++ t).
(** The program text the debugger shows in a frame of module [m]: what was typed so far if there is no module,
    otherwise the file of that name, and the script of the command line if that is missing or empty. *)
Inductive program_text (st : state) (m script : str) : str -> Prop :=
| pt_typed : m = [] -> script <> [] -> program_text st m script script
| pt_file : forall t, m <> [] -> c_string m -> file_text st m t -> t <> [] -> program_text st m script t
| pt_command : m = [] /\ script = [] \/ m <> [] /\ c_string m /\ file_text st m [] -> program_text st m script (d_script (st_dbg st)).
(** Code run by evalstr is in a module whose name starts so. *)
Definition from_text (m : str) : Prop := exists r, m = $"<evalstr>:" ++ r.
(** The line of the last statement of the frame. *)
Definition now_at (sc : scope) (l : Z) : Prop := exists t, s_token sc = Some t /\ tk_line t = l /\ (0 <= l < 2 ^ 64)%Z.

(** ** The breakpoints *)
Inductive numbered : Z -> list bpoint -> str -> Prop :=
| nb_end : forall no, numbered no [] []
| nb_one : forall no l m c bps t, numbered (no + 1) bps t ->
    numbered no (Bp l m c :: bps)
      ($"#" ++ padded (-3) (z_to_string no) ++ $" line=" ++ padded (-5) (z_to_string l) ++ $" module=" ++ padded (-25) m ++
       $" condition=" ++ c ++ [c_nl] ++ t).

(** Texts without braces. *)
Definition fine_break (b : bpoint) : Prop := fine_text (bp_module b) /\ fine_text (bp_cond b).

(** ** The call stack *)
(** One frame; [at_] is the frame to be marked. *)
Definition frame_line (at_ i : Z) (name line m : str) : str :=
  (if (at_ =? i)%Z then $"-->" else $"   ") ++ padded 5 (z_to_string i) ++ $" name=" ++ padded (-35) name ++ $" lineno=" ++ padded (-4) line ++
  $" module=" ++ m ++ [c_nl].
Definition line_text (sc : scope) (t : str) : Prop :=
  (exists k, s_token sc = Some k /\ t = z_to_string (tk_line k)) \/ (s_token sc = None /\ t = $"18446744073709551615").
(** The frames down from scope [s], [d] in number, the oldest first. *)
Inductive stack_text (st : state) (at_ : Z) : sid -> Z -> str -> Prop :=
| sk_one : forall s sc l, scope_at st s = Some sc -> s_prev sc = None -> line_text sc l -> stack_text st at_ s 1 (frame_line at_ 1 (s_name sc) l (s_module sc))
| sk_more : forall s sc p d t l, scope_at st s = Some sc -> s_prev sc = Some p -> (p < s)%positive -> line_text sc l -> stack_text st at_ p d t ->
    stack_text st at_ s (d + 1) (t ++ frame_line at_ (d + 1) (s_name sc) l (s_module sc)).

(** The names in the frames have no braces. *)
Inductive fine_frames (st : state) : sid -> Prop :=
| ff_one : forall s sc, scope_at st s = Some sc -> s_prev sc = None -> fine_text (s_name sc) -> fine_text (s_module sc) -> fine_frames st s
| ff_more : forall s sc p, scope_at st s = Some sc -> s_prev sc = Some p -> fine_text (s_name sc) -> fine_text (s_module sc) -> fine_frames st p -> fine_frames st s.

(** ** Variables *)
(** A value of a simple kind, its text and the name of the kind. *)
Inductive displayed : variant -> str -> str -> Prop :=
| dp_int : forall v z, is_int v z -> displayed v (z_to_string z) $"Int"
| dp_bool : forall v b, is_bool v b -> displayed v (if b then $"#t" else $"#f") $"Bool"
| dp_double : forall v d, is_dbl v d -> displayed v (f_to_string d) $"Double"
| dp_text : forall v t, is_str v t -> displayed v ([c_dquote] ++ t ++ [c_dquote]) $"String"
| dp_symbol : forall v t, is_sym v t -> displayed v t $"Symbol"
| dp_nil : forall v, v_ty v = TNil -> displayed v $"NIL" $"Nil"
| dp_function : forall v f, v_ty v = TFun -> v_val v = Some (OFun f) -> fn_bi f = false -> displayed v ($"function " ++ fn_sig f) $"Function".
(** The lines for the variables of a scope: internal ones and built-in functions are left out. *)
Inductive variables_text : list (str * ptr) -> str -> Prop :=
| vt_end : variables_text [] []
| vt_internal : forall n p vs t, variables_text vs t -> variables_text (($"###" ++ n, p) :: vs) t
| vt_builtin : forall n i v f vs t, (forall r, n <> $"###" ++ r) -> v_ty v = TFun -> v_val v = Some (OFun f) -> fn_bi f = true ->
    variables_text vs t -> variables_text ((n, P i (OVar v)) :: vs) t
| vt_shown : forall n i v d k vs t, (forall r, n <> $"###" ++ r) -> displayed v d k -> fine_text n -> fine_text d ->
    variables_text vs t ->
    variables_text ((n, P i (OVar v)) :: vs) (padded 20 n ++ $" --> " ++ padded (-40) d ++ $" : " ++ k ++ $" " ++ [c_nl] ++ t).

(** ** A state used by the examples *)
(** Stopped in function f, in line 2 of the file m of three lines, called from line 3; a breakpoint is in line 1. *)
Definition file_m : str := $"(defn f (x)" ++ [c_nl] ++ $"  (print x))" ++ [c_nl] ++ $"(f 5)".
Definition frame_f (m : str) : scope :=
  Scope [($"###x", P 81 (OBool true)); ($"plus", P 82 (OVar (MkVar TFun (Some (OFun (MkFn (CBuiltin BAdd) [] [] true false false []))) UnqNone None)));
         ($"t", P 83 (OVar (vstr $"abc"))); ($"x", P 84 (OVar (vint 5)))]
    $"f" m main_sid None (Some main_sid) None false false false false (Some (Token TkSymbol (TvStr $"print") 3 8 2)) None None [].
Definition looking_in (m : str) (inp : list str) : state :=
  with_scopes (PositiveMap.add 2%positive (frame_f m)
      (st_scopes (snd (mod_scope main_sid (fun sc => set_module $"m" (set_token (Some (Token TkSymbol (TvStr $"f") 1 2 3)) sc)) fresh))))
    (with_dbg (Dbg [Bp 1 $"m" []; Bp 7 [] $"(> x 1)"] true StopAlways []) (init_state inp [($"m", file_m); ($"n", $"{4}")] (Env (fun _ => true) None []))).
Definition looking : list str -> state := looking_in $"m".
