(** What a line typed at the debugger's prompt means; the commands that list functions, macros and modules. *)
Require Import String Ascii List ZArith Bool Lia.
Require Import PArith FMapPositive.
From Verif Require Import Base CppString Num Token Tokenizer Parser Value State Show ScopeOps Builtins Table Eval LispTop Debugger Cli
  SpecRun SpecVal SpecText SpecLex SpecNum SpecForm SpecDebug SpecCli SpecShow SpecCmd ClassifyProofs FuelProofs RelProofs TextProofs BuiltinProofs StrProofs NumProofs RunProofs ErrProofs DictProofs FormProofs DebugProofs CliProofs PromptProofs ShowProofs.
Import ListNotations.

(** ** The meaning of a line *)
Lemma starts_prefix : forall p w, prefixb p w = true <-> starts p w.
Proof. intros p w. apply TextProofs.prefixb_spec. Qed.
Lemma no_prefix : forall p w, ~ starts p w -> prefixb p w = false.
Proof. intros p w N. destruct (prefixb p w) eqn:E; [|reflexivity]. apply starts_prefix in E. contradiction. Qed.
Lemma command_short : forall w c, short_for w c -> command_of w = command_of c.
Proof.
  intros w c H. destruct H as [w I| | | | | | |w (r & ->)|w (r & ->) N|w [(r & ->)|(r & ->)]|w (r & ->)|w (r & ->) N|w (r & ->) N|w (r & ->)]; try reflexivity.
  - repeat destruct I as [<-|I]; try contradiction; reflexivity.
  - unfold command_of. rewrite (no_prefix _ _ N). change (prefixb $"c" ($"c" ++ r)) with true. rewrite !orb_true_r. reflexivity.
  - unfold command_of. change (prefixb $"u" ($"u" ++ r)) with true. rewrite !orb_true_r. reflexivity.
  - unfold command_of. rewrite (no_prefix _ _ N). change (prefixb $"d" ($"d" ++ r)) with true. rewrite !orb_true_r. reflexivity.
  - unfold command_of. rewrite (no_prefix _ _ N). change (prefixb $"l" ($"l" ++ r)) with true. rewrite !orb_true_r. reflexivity.
  - unfold command_of. change (prefixb $"g" ($"g" ++ r)) with true. rewrite !orb_true_r. reflexivity.
Qed.
(** Commands whose text does not matter any more. *)
Lemma short_kind : forall w c, short_for w c -> ~ In (command_of c) [CDoc; CSearchDoc; CClear; CBreakpoint; CEval].
Proof. intros w c H. destruct H; vm_compute; intuition discriminate. Qed.
Lemma short_same : forall main g top cur script st w c rest, typed st w rest -> short_for w c ->
  forall o st', at_prompt main g top cur script st o st' <-> at_prompt main g top cur script (with_in (c :: rest) st) o st'.
Proof.
  intros main g top cur script st w c rest T S.
  assert (T2 : typed (with_in (c :: rest) st) c rest).
  { exists c. split; [reflexivity|]. destruct S; split; try reflexivity; exists [], []; repeat split; constructor. }
  assert (E : forall n k, dbg_loop (drun n) (Datatypes.S k) main g top cur script st = dbg_loop (drun n) (Datatypes.S k) main g top cur script (with_in (c :: rest) st)).
  { intros n k. rewrite (loop_obeys _ _ _ _ _ _ _ _ _ _ T), (loop_obeys _ _ _ _ _ _ _ _ _ _ T2).
    change (answered (with_in (c :: rest) st) rest) with (answered st rest).
    pose proof (short_kind _ _ S) as K. unfold obey. rewrite (command_short _ _ S). destruct (command_of c); try reflexivity; exfalso; apply K; cbn [In]; tauto. }
  intros o st'. split; intros (n & R & N); (destruct n as [|n]; [cbn in R; injection R as R _; subst; contradiction N; reflexivity|]); exists (Datatypes.S n); (split; [|exact N]);
    [rewrite <- E|rewrite E]; exact R.
Qed.
(** Every other line is code. *)
Lemma command_code : forall w, ~ a_command w -> command_of w = CEval.
Proof.
  intros w N.
  assert (E : forall x, In x [[]; $"exit"; $"quit"; $"q"; $"help"; $"h"; $"about"; $"funcs"; $"macros"; $"builtins"; $"modules"; $"stack"; $"step"; $"s"; $"over"; $"v"; $"out"; $"o";
        $"run"; $"r"; $"restart"; $"version"; $"ver"] -> str_eqb w x = false).
  { intros x I. apply str_eqb_neq. intros ->. apply N. left. exact I. }
  assert (P : forall p, In p [$"doc"; $"searchdoc"; $"k"; $"c"; $"t"; $"break "; $"b "; $"u"; $"d"; $"l"; $"g"] -> prefixb p w = false).
  { intros p I. apply no_prefix. intro H. apply N. right. exists p. split; assumption. }
  assert (Q : forall p c r, p = c :: r -> In [c] [$"doc"; $"searchdoc"; $"k"; $"c"; $"t"; $"break "; $"b "; $"u"; $"d"; $"l"; $"g"] -> prefixb p w = false /\ str_eqb w p = false).
  { intros p c r -> I. specialize (P _ I). destruct w as [|d w]; [split; reflexivity|]. cbn [prefixb] in P. cbn [prefixb]. destruct (Ascii.eqb c d) eqn:X; [discriminate|].
    split; [reflexivity|]. apply str_eqb_neq. intro Y. injection Y as -> _. rewrite Ascii.eqb_refl in X. discriminate. }
  unfold command_of.
  destruct (Q $"clear" _ _ eq_refl) as (-> & _); [cbn [In]; tauto|]. destruct (Q $"code" _ _ eq_refl) as (_ & ->); [cbn [In]; tauto|].
  destruct (Q $"list" _ _ eq_refl) as (-> & _); [cbn [In]; tauto|]. destruct (Q $"up" _ _ eq_refl) as (_ & ->); [cbn [In]; tauto|].
  destruct (Q $"down" _ _ eq_refl) as (_ & ->); [cbn [In]; tauto|]. destruct (Q $"locals" _ _ eq_refl) as (_ & ->); [cbn [In]; tauto|].
  destruct (Q $"globals" _ _ eq_refl) as (_ & ->); [cbn [In]; tauto|].
  rewrite !E by (cbn [In]; tauto). rewrite !P by (cbn [In]; tauto).
  reflexivity.
Qed.
Lemma typed_code : forall main g top cur script st w rest sc, typed st w rest -> ~ a_command w -> scope_at st cur = Some sc ->
  (forall v st1 t, debug_scripts w cur (s_module sc) (answered st rest) (Val (Some v)) st1 -> var_str v st1 = Val t -> fine_text t ->
     forall o st', at_prompt main g top cur script st o st' <-> at_prompt main g top cur (script ++ w ++ [c_nl]) (wrote ($"result=" ++ t ++ [c_nl]) st1) o st') /\
  (forall e st1, debug_scripts w cur (s_module sc) (answered st rest) (Throw e) st1 ->
     forall o st', at_prompt main g top cur script st o st' <->
       at_prompt main g top cur script (wrote (match e with ELisp m _ | ELispBase m => $"Exception: " ++ m | _ => $"Native Exception" end ++ [c_nl]) st1) o st').
Proof.
  intros main g top cur script st w rest sc T NC E.
  assert (G : get_scope cur (answered st rest) = Val sc) by (unfold get_scope, scope_at in *; cbn [st_scopes answered with_in with_out]; rewrite E; reflexivity).
  split.
  - intros v st1 t DS V FT. destruct (script_at _ _ _ _ _ _ DS) as (k0 & K). apply (prompt_goes_on_from k0). intros n k _ L. rewrite (loop_obeys _ _ _ _ _ _ _ _ _ _ T). unfold obey. rewrite (command_code w NC).
    assert (EF : Format $"result={0}" [t] = Val ($"result=" ++ t)).
    { etransitivity; [apply (Format_full [PLit $"result="; PHole "0"%char] [t])|].
      - repeat constructor; cbn; intuition discriminate.
      - repeat constructor; apply FT.
      - unfold has_hole. cbn. intros i I H. repeat destruct I as [<-|I]; try contradiction; destruct H as [H|(wt & x & H)]; intuition discriminate.
      - cbn. rewrite app_nil_r. reflexivity. }
    unfold bind at 1. unfold cmd_eval. unfold bind at 1, reads at 1. rewrite G. unfold try_catch. unfold bind at 1. rewrite (K n L). unfold bind at 1, some_var, ret at 1. unfold bind at 1, reads at 1. rewrite V.
    unfold bind at 1, write_fmt, bind at 1, lift at 1. rewrite EF. unfold write_line, write_out, wrote, ret. rewrite <- !app_assoc. reflexivity.
  - intros e st1 DS. destruct (script_at _ _ _ _ _ _ DS) as (k0 & K). apply (prompt_goes_on_from k0). intros n k _ L. rewrite (loop_obeys _ _ _ _ _ _ _ _ _ _ T). unfold obey. rewrite (command_code w NC).
    unfold bind at 1. unfold cmd_eval. unfold bind at 1, reads at 1. rewrite G. unfold try_catch. unfold bind at 1. rewrite (K n L). destruct e; reflexivity.
Qed.

(** ** Fixed texts *)
Lemma write_lines_writes : forall ls st, write_lines ls st = (Val tt, wrote (flat_map (fun l => l ++ [c_nl]) ls) st).
Proof.
  induction ls as [|l ls IH]; intro st; cbn [write_lines flat_map].
  - rewrite wrote_nil. reflexivity.
  - unfold bind at 1, write_line, write_out. rewrite IH. change (with_out (st_out st ++ l ++ [c_nl]) st) with (wrote (l ++ [c_nl]) st). rewrite wrote_wrote. reflexivity.
Qed.
Lemma version_command : forall main g top cur script st w rest, typed st w rest -> In w [$"version"; $"ver"] ->
  forall o st', at_prompt main g top cur script st o st' <-> at_prompt main g top cur script (wrote version_text (answered st rest)) o st'.
Proof.
  intros main g top cur script st w rest T I. apply prompt_goes_on. intros n k _. rewrite (loop_obeys _ _ _ _ _ _ _ _ _ _ T).
  repeat destruct I as [<-|I]; try contradiction; unfold obey; match goal with |- context [command_of ?x] => let v := eval vm_compute in (command_of x) in change (command_of x) with v end; cbv iota;
    unfold bind at 1; rewrite write_lines_writes; reflexivity.
Qed.
Lemma about_command : forall main g top cur script st rest, typed st $"about" rest ->
  forall o st', at_prompt main g top cur script st o st' <-> at_prompt main g top cur script (wrote about_text (answered st rest)) o st'.
Proof.
  intros main g top cur script st rest T. apply prompt_goes_on. intros n k _. rewrite (loop_obeys _ _ _ _ _ _ _ _ _ _ T).
  unfold obey; match goal with |- context [command_of ?x] => let v := eval vm_compute in (command_of x) in change (command_of x) with v end; cbv iota;
    unfold bind at 1; rewrite write_lines_writes; reflexivity.
Qed.
Lemma help_is : help_text (flat_map (fun l => l ++ [c_nl]) help_lines).
Proof.
  exists (firstn 24 (skipn 3 help_lines)). split; [|reflexivity].
  unfold explained, help_lines. cbn [firstn skipn].
  repeat (apply Forall2_cons; [eexists; split; [reflexivity|split; [discriminate|cbv; intuition discriminate]]|]). apply Forall2_nil.
Qed.
Lemma help_command : forall main g top cur script st w rest, typed st w rest -> In w [$"help"; $"h"] ->
  exists t, help_text t /\ forall o st', at_prompt main g top cur script st o st' <-> at_prompt main g top cur script (wrote t (answered st rest)) o st'.
Proof.
  intros main g top cur script st w rest T I. exists (flat_map (fun l => l ++ [c_nl]) help_lines). split; [exact help_is|]. apply prompt_goes_on. intros n k _. rewrite (loop_obeys _ _ _ _ _ _ _ _ _ _ T).
  repeat destruct I as [<-|I]; try contradiction; unfold obey; match goal with |- context [command_of ?x] => let v := eval vm_compute in (command_of x) in change (command_of x) with v end; cbv iota;
    unfold bind at 1; rewrite write_lines_writes; reflexivity.
Qed.

(** ** Functions, macros and modules *)
Lemma fn_format : forall a b c d : str, fine_arg a -> fine_arg b -> fine_arg c -> fine_arg d ->
  Format $"{0,20} --> {1,-40} : {2} {3}" [a; b; c; d] = Val (padded 20 a ++ $" --> " ++ padded (-40) b ++ $" : " ++ c ++ $" " ++ d).
Proof.
  intros a b c d A B C D.
  change ($"{0,20} --> {1,-40} : {2} {3}" : str) with
    (template [PWide "0"%char $"20" 20; PLit $" --> "; PWide "1"%char $"-40" (-40); PLit $" : "; PHole "2"%char; PLit $" "; PHole "3"%char]).
  rewrite Format_full.
  - cbn [fill_all digits5 list_ascii_of_string fill_hole fill_wide Ascii.eqb Bool.eqb template flat_map piece_text]. rewrite !app_nil_r. reflexivity.
  - pieces.
  - repeat (apply Forall_cons || apply Forall_nil); assumption.
  - cbn [length skipn digits5 list_ascii_of_string]. intros k [<-|[]] [H|(wt & w & H)]; cbn in H; intuition discriminate.
Qed.
Lemma sig_format : forall a b : str, fine_arg a -> fine_arg b -> Format $"{0,20} --> {1}" [a; b] = Val (padded 20 a ++ $" --> " ++ b).
Proof.
  intros a b A B.
  change ($"{0,20} --> {1}" : str) with (template [PWide "0"%char $"20" 20; PLit $" --> "; PHole "1"%char]).
  rewrite Format_full.
  - cbn [fill_all digits5 list_ascii_of_string fill_hole fill_wide Ascii.eqb Bool.eqb template flat_map piece_text]. rewrite !app_nil_r. reflexivity.
  - pieces.
  - repeat (apply Forall_cons || apply Forall_nil); assumption.
  - cbn [length skipn digits5 list_ascii_of_string]. intros k I [H|(wt & w & H)]; repeat destruct I as [<-|I]; try contradiction; cbn in H; intuition discriminate.
Qed.
Lemma doc_format : forall a b : str, fine_arg a -> fine_arg b -> Format $"{0,20}     {1}" [a; b] = Val (padded 20 a ++ $"     " ++ b).
Proof.
  intros a b A B.
  change ($"{0,20}     {1}" : str) with (template [PWide "0"%char $"20" 20; PLit $"     "; PHole "1"%char]).
  rewrite Format_full.
  - cbn [fill_all digits5 list_ascii_of_string fill_hole fill_wide Ascii.eqb Bool.eqb template flat_map piece_text]. rewrite !app_nil_r. reflexivity.
  - pieces.
  - repeat (apply Forall_cons || apply Forall_nil); assumption.
  - cbn [length skipn digits5 list_ascii_of_string]. intros k I [H|(wt & w & H)]; repeat destruct I as [<-|I]; try contradiction; cbn in H; intuition discriminate.
Qed.
Lemma fine_app : forall a b : str, existsb (Ascii.eqb c_open) a = false -> a <> [] -> (forall c, hd_error a = Some c -> hd_error NULL_STRING <> Some c) -> fine_text b -> fine_arg (a ++ b).
Proof.
  intros a b A NE H (B & _). split.
  - intro I. apply in_app_iff in I. destruct I as [I|I]; [exact (lit_ok a A I)|exact (B I)].
  - intro E. destruct a as [|c a]; [contradiction NE; reflexivity|]. apply (H c eq_refl). rewrite <- E. reflexivity.
Qed.
Lemma fn_dbg : forall v f st, v_ty v = TFun -> v_val v = Some (OFun f) -> var_dbg v st = Val ($"function " ++ fn_sig f) /\ type_string v = Val $"Function".
Proof.
  intros v f st T V. unfold var_dbg, show_fuel, type_string. rewrite T. split; [|reflexivity]. cbn [Nat.add show]. unfold is_ty. rewrite T. change (ltype_eqb TFun TString) with false. cbv iota. cbn [show].
  rewrite ?T, ?V. reflexivity.
Qed.
Lemma fn_value : forall v f st, v_ty v = TFun -> v_val v = Some (OFun f) -> function_value v st = Val f.
Proof. intros v f st T V. unfold function_value, is_ty. rewrite T, V. reflexivity. Qed.
Lemma fn_ty : forall v, v_ty v = TFun -> is_ty TFun v = true.
Proof. intros v T. unfold is_ty. rewrite T. reflexivity. Qed.
Lemma not_fn_ty : forall v, v_ty v <> TFun -> is_ty TFun v = false.
Proof. intros v T. unfold is_ty. destruct (v_ty v); try reflexivity. contradiction T; reflexivity. Qed.
Lemma dump_fns_writes : forall bi (wanted : fnval -> Prop) (line : str -> fnval -> str -> Prop) cl vs t, functions_text wanted line vs t ->
  (forall f, negb bi || fn_bi f = true <-> wanted f) ->
  (forall n v f l st, v_ty v = TFun -> v_val v = Some (OFun f) -> line n f l -> cl n v f st = (Val tt, wrote l st)) ->
  forall st, dump_fns bi cl vs st = (Val tt, wrote t st).
Proof.
  intros bi wanted line cl vs t H W L. induction H as [|n p vs t H IH|n i v vs t NI T H IH|n i v f vs t NI T V NW H IH|n i v f l vs t NI T V WF LN H IH]; intro st; cbn [dump_fns].
  - rewrite wrote_nil. reflexivity.
  - unfold bind at 1. change (prefixb k_metatag ($"###" ++ n)) with true. cbv iota. unfold ret at 1. apply IH.
  - unfold bind at 1. rewrite (not_internal n NI). unfold bind at 1, lift at 1. cbn [vref vref_obj]. rewrite (not_fn_ty v T). unfold ret at 1. apply IH.
  - unfold bind at 1. rewrite (not_internal n NI). unfold bind at 1, lift at 1. cbn [vref vref_obj]. rewrite (fn_ty v T). unfold bind at 1, reads at 1. rewrite (fn_value v f st T V).
    destruct (negb bi || fn_bi f) eqn:B; [exfalso; apply NW, W, B|]. unfold ret at 1. apply IH.
  - unfold bind at 1. rewrite (not_internal n NI). unfold bind at 1, lift at 1. cbn [vref vref_obj]. rewrite (fn_ty v T). unfold bind at 1, reads at 1. rewrite (fn_value v f st T V).
    rewrite (proj2 (W f) WF). rewrite (L n v f l st T V LN). rewrite IH, wrote_wrote. reflexivity.
Qed.
Lemma fine_sig : forall f, fine_text (fn_sig f) -> fine_arg ($"function " ++ fn_sig f).
Proof. intros f F. apply fine_app; [reflexivity|discriminate| |exact F]. intros c E. injection E as <-. vm_compute. discriminate. Qed.
Lemma fine_empty : fine_arg [].
Proof. split; [intros []|discriminate]. Qed.
Lemma builtin_line_writes : forall n v f l st, v_ty v = TFun -> v_val v = Some (OFun f) -> builtin_line n f l -> fn_line (fun _ => []) n v f st = (Val tt, wrote l st).
Proof.
  intros n v f l st T V [FN FS]. destruct (fn_dbg v f st T V) as (D1 & D2). unfold fn_line. unfold bind at 1, reads at 1. rewrite D1. unfold bind at 1, lift at 1. rewrite D2.
  rewrite (write_fmt_is _ _ _ _ (fn_format n _ _ [] (fine_is _ FN) (fine_sig f FS) (fine_lit $"Function" eq_refl eq_refl) fine_empty)). unfold head_line. rewrite <- !app_assoc. reflexivity.
Qed.
Lemma extract_shown : forall m m', module_shown m m' -> extract_module m = m'.
Proof.
  intros m m' [(N & ->)|(r & -> & NI & D)]; unfold extract_module.
  - rewrite no_prefix; [reflexivity|]. intros (r & E). apply N. exists r. exact E.
  - change (prefixb $"<evalstr>:" ($"<evalstr>:" ++ m' ++ r)) with true. cbv iota. change (skipn 10 ($"<evalstr>:" ++ m' ++ r)) with (m' ++ r). cbv zeta.
    destruct D as [->|(r' & ->)].
    + rewrite app_nil_r. change ($":" : str) with [":"%char]. rewrite (find_not ":"%char m' NI). reflexivity.
    + change (m' ++ $":" ++ r') with (m' ++ ":"%char :: r'). change ($":" : str) with [":"%char]. rewrite (find_at ":"%char m' r' NI). rewrite firstn_app, firstn_all, Nat.sub_diag. cbn [firstn]. apply app_nil_r.
Qed.
Lemma function_line_writes : forall n v f l st, v_ty v = TFun -> v_val v = Some (OFun f) -> function_line n f l ->
  fn_line (fun f => $" : module=" ++ extract_module (fn_mod f)) n v f st = (Val tt, wrote l st).
Proof.
  intros n v f l st T V [m FN FS FM MS]. destruct (fn_dbg v f st T V) as (D1 & D2). unfold fn_line. unfold bind at 1, reads at 1. rewrite D1. unfold bind at 1, lift at 1. rewrite D2.
  rewrite (extract_shown _ _ MS).
  assert (FX : fine_arg ($" : module=" ++ m)) by (apply fine_app; [reflexivity|discriminate| |exact FM]; intros c E; injection E as <-; vm_compute; discriminate).
  rewrite (write_fmt_is _ _ _ _ (fn_format n _ _ _ (fine_is _ FN) (fine_sig f FS) (fine_lit $"Function" eq_refl eq_refl) FX)). unfold head_line. rewrite <- !app_assoc. reflexivity.
Qed.
Lemma manual_line_writes : forall n v f l st, v_ty v = TFun -> v_val v = Some (OFun f) -> manual_line n f l -> help_line n v f st = (Val tt, wrote l st).
Proof.
  intros n v f l st _ _ [FN FS E|FN FS E FD]; unfold help_line; unfold bind at 1; rewrite (write_fmt_is _ _ _ _ (sig_format n _ (fine_is _ FN) (fine_is _ FS))).
  - rewrite E. unfold ret. rewrite <- !app_assoc. reflexivity.
  - destruct (fn_doc f) as [|c d] eqn:ED; [contradiction E; reflexivity|].
    rewrite (write_fmt_is _ _ _ _ (doc_format $" " _ (fine_lit $" " eq_refl eq_refl) (fine_is _ FD))). rewrite wrote_wrote, <- !app_assoc. reflexivity.
Qed.
(** The words of a line. *)
Lemma split_last : forall fuel c a s, ~ In c s -> split_loop (S fuel) (a ++ s) [c] (length a) (length a) = Val [s].
Proof.
  intros fuel c a s N. cbn [split_loop]. rewrite find_from_app, (find_not c s N). cbn [option_map]. rewrite after_len. reflexivity.
Qed.
Lemma Split_one : forall c s, ~ In c s -> Split s [c] = Val [s].
Proof. intros c s N. exact (split_last (S (length s)) c [] s N). Qed.
Lemma split_step : forall fuel s sep prev pos, split_loop (S fuel) s sep prev pos =
  match find_from sep s pos with
  | Some p => let? w := substr s prev (p - prev) in let? ws := split_loop fuel s sep (S p) (S p) in Val (w :: ws)
  | None => let? w := substr_from s prev in Val [w]
  end.
Proof. reflexivity. Qed.
Lemma Split_two : forall c a b, ~ In c a -> ~ In c b -> Split (a ++ c :: b) [c] = Val [a; b].
Proof.
  intros c a b NA NB. unfold Split. rewrite split_step.
  assert (F : find_from [c] (a ++ c :: b) 0 = Some (length a)) by (pose proof (find_from_app [c] [] (a ++ c :: b)) as X; rewrite (find_at c a b NA) in X; exact X).
  rewrite F, Nat.sub_0_r.
  assert (S1 : substr (a ++ c :: b) 0 (length a) = Val a) by (unfold substr; cbn [Nat.ltb Nat.leb skipn]; rewrite firstn_app, firstn_all, Nat.sub_diag; cbn [firstn]; rewrite app_nil_r; reflexivity).
  rewrite S1. cbn [obind]. pose proof (split_last (length (a ++ c :: b)) c (a ++ [c]) b NB) as X.
  assert (L : length (a ++ [c]) = S (length a)) by (rewrite app_length; cbn; lia). rewrite L, <- app_assoc in X. change ([c] ++ b) with (c :: b) in X. rewrite X. reflexivity.
Qed.
Lemma doc_word : forall r, command_of ($"doc" ++ r) = CDoc.
Proof. intro r. reflexivity. Qed.
Lemma searchdoc_word : forall r, command_of ($"searchdoc" ++ r) = CSearchDoc.
Proof. intro r. reflexivity. Qed.
Lemma builtins_command : forall main g top cur script st rest sc t, typed st $"builtins" rest -> scope_at st g = Some sc -> functions_text built_in builtin_line (s_vars sc) t ->
  forall o st', at_prompt main g top cur script st o st' <-> at_prompt main g top cur script (wrote t (answered st rest)) o st'.
Proof.
  intros main g top cur script st rest sc t T E F. apply prompt_goes_on. intros n k _. rewrite (loop_obeys _ _ _ _ _ _ _ _ _ _ T).
  unfold obey. change (command_of $"builtins") with CBuiltins. cbv iota. unfold bind at 1, dump_builtin_functions. unfold bind at 1, reads at 1. rewrite (answered_scope _ _ _ _ E).
  rewrite (dump_fns_writes true built_in builtin_line _ _ _ F); [reflexivity|intro f; reflexivity|exact builtin_line_writes].
Qed.
Lemma manual_command : forall main g top cur script st w rest sc t, typed st w rest -> starts $"doc" w \/ starts $"searchdoc" w -> ~ In " "%char w ->
  scope_at st g = Some sc -> functions_text built_in manual_line (s_vars sc) t ->
  forall o st', at_prompt main g top cur script st o st' <-> at_prompt main g top cur script (wrote t (answered st rest)) o st'.
Proof.
  intros main g top cur script st w rest sc t T SW NB E F. apply prompt_goes_on. intros n k _. rewrite (loop_obeys _ _ _ _ _ _ _ _ _ _ T).
  assert (O : obey (drun n) k main g top cur script w (answered st rest) =
              bind (dump_builtin_help g) (fun _ => dbg_loop (drun n) k main g top cur script) (answered st rest)).
  { pose proof (Split_one " "%char w NB) as SP. change [" "%char] with ($" ") in SP.
    destruct SW as [(r & ->)|(r & ->)]; unfold obey; [rewrite doc_word|rewrite searchdoc_word]; cbv iota; unfold bind at 1, cmd_doc; unfold bind at 1, lift at 1; rewrite SP; reflexivity. }
  rewrite O. unfold bind at 1, dump_builtin_help. unfold bind at 1, reads at 1. rewrite (answered_scope _ _ _ _ E).
  rewrite (dump_fns_writes true built_in manual_line _ _ _ F); [reflexivity|intro f; reflexivity|exact manual_line_writes].
Qed.
Lemma doc_command : forall main g top cur script st what i rest sc, In what [$"doc"; $"searchdoc"] -> typed st (what ++ $" " ++ i) rest -> ~ In " "%char i -> scope_at st cur = Some sc ->
  (forall v st1 t, debug_scripts ($"(" ++ what ++ $" '" ++ i ++ $")") cur (s_module sc) (answered st rest) (Val (Some v)) st1 -> var_str v st1 = Val t -> fine_text t ->
     forall o st', at_prompt main g top cur script st o st' <-> at_prompt main g top cur script (wrote (t ++ [c_nl]) st1) o st') /\
  (forall e st1, debug_scripts ($"(" ++ what ++ $" '" ++ i ++ $")") cur (s_module sc) (answered st rest) (Throw e) st1 ->
     forall o st', at_prompt main g top cur script st o st' <-> o = Throw e /\ st' = st1).
Proof.
  intros main g top cur script st what i rest sc I T NB E.
  assert (G : get_scope cur (answered st rest) = Val sc) by (apply (answered_scope _ _ _ _ E)).
  assert (O : forall n k, obey (drun n) k main g top cur script (what ++ $" " ++ i) (answered st rest) =
    bind (r_script (drun n) ($"(" ++ what ++ $" '" ++ i ++ $")") cur (s_module sc)) (fun r => bind (bind (some_var r) (fun v => bind (reads (var_str v)) (fun t => write_fmt $"{0}" [t])))
      (fun _ => dbg_loop (drun n) k main g top cur script)) (answered st rest)).
  { intros n k. assert (SP : Split (what ++ $" " ++ i) $" " = Val [what; i]) by (apply (Split_two " "%char what i); [|exact NB]; repeat destruct I as [<-|I]; try contradiction; cbv; intuition discriminate).
    unfold obey. assert (CW : command_of (what ++ $" " ++ i) = CDoc /\ what = $"doc" \/ command_of (what ++ $" " ++ i) = CSearchDoc /\ what = $"searchdoc")
      by (repeat destruct I as [<-|I]; try contradiction; [left|right]; split; reflexivity).
    destruct CW as [(CW & EW)|(CW & EW)]; rewrite CW, EW in *; cbv iota; unfold bind at 1, cmd_doc; unfold bind at 1, lift at 1; rewrite SP; unfold bind at 1, reads at 1; rewrite G;
      unfold bind at 1; unfold bind at 3; match goal with |- context [r_script ?a ?b ?c ?d ?e] => destruct (r_script a b c d e) as ([r|?|?|?|] & s1) end; reflexivity. }
  split.
  - intros v st1 t DS V FT. destruct (script_at _ _ _ _ _ _ DS) as (k0 & K). apply (prompt_goes_on_from k0). intros n k _ L. rewrite (loop_obeys _ _ _ _ _ _ _ _ _ _ T), O.
    unfold bind at 1. rewrite (K n L). unfold bind at 1. unfold bind at 1, some_var, ret at 1. unfold bind at 1, reads at 1. rewrite V.
    assert (EF : Format $"{0}" [t] = Val t).
    { etransitivity; [apply (Format_full [PHole "0"%char] [t])|].
      - repeat constructor; cbn; intuition discriminate.
      - repeat constructor; apply FT.
      - unfold has_hole. cbn. intros x X H. repeat destruct X as [<-|X]; try contradiction; destruct H as [H|(wt & y & H)]; intuition discriminate.
      - cbn. rewrite app_nil_r. reflexivity. }
    rewrite (write_fmt_is _ _ _ _ EF). reflexivity.
  - intros e st1 DS o st'. destruct (script_at _ _ _ _ _ _ DS) as (k0 & K). split.
    + intros (n & R & N). assert (R' : dbg_loop (drun (S (n + k0))) (S (n + k0)) main g top cur script st = (o, st')).
      { rewrite <- R. apply (mono_prompt main g top cur script n (S (n + k0)) ltac:(lia)). rewrite R. exact N. }
      rewrite (loop_obeys _ _ _ _ _ _ _ _ _ _ T), O in R'. unfold bind at 1 in R'. rewrite (K (S (n + k0)) ltac:(lia)) in R'. injection R' as <- <-. auto.
    + intros (-> & ->). exists (S k0). split; [|discriminate]. rewrite (loop_obeys _ _ _ _ _ _ _ _ _ _ T), O. unfold bind at 1. rewrite (K (S k0) ltac:(lia)). reflexivity.
Qed.

(** The names of macros and modules. *)
Lemma first_found : forall vs n p, first_var vs n p -> vars_find n vs = Some p.
Proof.
  intros vs n p (a & b & -> & N). induction a as [|(m & q) a IH]; cbn [app vars_find].
  - rewrite str_eqb_refl. reflexivity.
  - cbn [map fst In] in N. rewrite (proj2 (str_eqb_neq n m)) by (intros ->; tauto). apply IH. tauto.
Qed.
Lemma none_found : forall vs n, ~ In n (map fst vs) -> vars_find n vs = None.
Proof.
  intros vs n N. induction vs as [|(m & q) vs IH]; [reflexivity|]. cbn [vars_find]. cbn [map fst In] in N. rewrite (proj2 (str_eqb_neq n m)) by (intros ->; tauto). apply IH. tauto.
Qed.
Lemma names_command : forall main g top cur script st w key rest sc, typed st w rest -> (w = $"macros" /\ key = $"###macros###") \/ (w = $"modules" /\ key = $"###modules###") ->
  scope_at st g = Some sc ->
  (forall i m ms, first_var (s_vars sc) key (P i (OScope m)) -> scope_at st m = Some ms ->
     forall o st', at_prompt main g top cur script st o st' <-> at_prompt main g top cur script (wrote (flat_map (fun kv => fst kv ++ [c_nl]) (s_vars ms)) (answered st rest)) o st') /\
  (~ In key (map fst (s_vars sc)) -> forall o st', at_prompt main g top cur script st o st' <-> at_prompt main g top cur script (answered st rest) o st').
Proof.
  intros main g top cur script st w key rest sc T I E.
  assert (O : forall n k, obey (drun n) k main g top cur script w (answered st rest) = bind (dump_meta key g) (fun _ => dbg_loop (drun n) k main g top cur script) (answered st rest))
    by (intros n k; destruct I as [(-> & ->)|(-> & ->)]; reflexivity).
  split.
  - intros i m ms F EM. apply prompt_goes_on. intros n k _. rewrite (loop_obeys _ _ _ _ _ _ _ _ _ _ T), O. unfold bind at 1, dump_meta. unfold bind at 1, reads at 1. rewrite (answered_scope _ _ _ _ E).
    rewrite (first_found _ _ _ F). unfold bind at 1, lift at 1. cbn [deref]. unfold bind at 1, reads at 1. rewrite (answered_scope _ _ _ _ EM). rewrite write_lines_writes.
    do 2 f_equal. clear. generalize (s_vars ms) as vs. induction vs as [|kv vs IH]; [reflexivity|]. cbn [map flat_map]. rewrite IH. reflexivity.
  - intro N. apply prompt_goes_on. intros n k _. rewrite (loop_obeys _ _ _ _ _ _ _ _ _ _ T), O. unfold bind at 1, dump_meta. unfold bind at 1, reads at 1. rewrite (answered_scope _ _ _ _ E).
    rewrite (none_found _ _ N). reflexivity.
Qed.

(** All functions. *)
Lemma same_scope : forall st st' s sc, st_scopes st' = st_scopes st -> scope_at st s = Some sc -> get_scope s st' = Val sc.
Proof. intros st st' s sc E H. unfold get_scope. unfold scope_at in H. rewrite E, H. reflexivity. Qed.
Scheme all_functions_min := Minimality for all_functions Sort Prop
  with of_modules_min := Minimality for of_modules Sort Prop.
Lemma dump_functions_writes : forall st g t, all_functions st g t -> exists k0, forall k, (k0 <= k)%nat -> forall st', st_scopes st' = st_scopes st -> dump_functions k g st' = (Val tt, wrote t st').
Proof.
  intro st.
  apply (all_functions_min st (fun g t => exists k0, forall k, (k0 <= k)%nat -> forall st', st_scopes st' = st_scopes st -> dump_functions k g st' = (Val tt, wrote t st'))
    (fun vs t => exists k0, forall k, (k0 <= k)%nat -> forall st', st_scopes st' = st_scopes st ->
       fold_right (fun kv rest => let! q := lift (deref (snd kv)) in (match q with OScope ms1 => dump_functions k ms1 | _ => ret tt end) ;; rest) (ret tt) vs st' = (Val tt, wrote t st'))).
  - intros g sc t E F N. exists 1%nat. intros [|k] L st' ES; [lia|]. cbn [dump_functions]. unfold bind at 1, reads at 1. rewrite (same_scope _ _ _ _ ES E).
    unfold bind at 1. rewrite (dump_fns_writes false (fun _ => True) function_line _ _ _ F); [|intro f; cbn; tauto|exact function_line_writes].
    change k_modules with ($"###modules###"). rewrite (none_found _ _ N). reflexivity.
  - intros g sc t i m ms t' E F FV EM OM (k0 & IH). exists (S k0). intros [|k] L st' ES; [lia|]. cbn [dump_functions]. unfold bind at 1, reads at 1. rewrite (same_scope _ _ _ _ ES E).
    unfold bind at 1. rewrite (dump_fns_writes false (fun _ => True) function_line _ _ _ F); [|intro f; cbn; tauto|exact function_line_writes].
    change k_modules with ($"###modules###"). rewrite (first_found _ _ _ FV). unfold bind at 1, lift at 1. cbn [deref]. unfold bind at 1, reads at 1. rewrite (same_scope st (wrote t st') m ms ES EM).
    rewrite (IH k ltac:(lia) (wrote t st') ES), wrote_wrote. reflexivity.
  - exists 0%nat. intros k _ st' _. cbn [fold_right]. unfold ret. rewrite wrote_nil. reflexivity.
  - intros n i s vs t t' AF (k1 & IH1) OM (k2 & IH2). exists (k1 + k2)%nat. intros k L st' ES. cbn [fold_right snd deref]. unfold bind at 1, lift at 1. unfold bind at 1.
    rewrite (IH1 k ltac:(lia) st' ES), (IH2 k ltac:(lia) (wrote t st') ES), wrote_wrote. reflexivity.
Qed.
Lemma funcs_command : forall main g top cur script st rest t, typed st $"funcs" rest -> all_functions st g t ->
  forall o st', at_prompt main g top cur script st o st' <-> at_prompt main g top cur script (wrote t (answered st rest)) o st'.
Proof.
  intros main g top cur script st rest t T A. destruct (dump_functions_writes _ _ _ A) as (k0 & K). apply (prompt_goes_on_from k0). intros n k L _. rewrite (loop_obeys _ _ _ _ _ _ _ _ _ _ T).
  unfold obey. change (command_of $"funcs") with CFuncs. cbv iota. unfold bind at 1. rewrite (K k L (answered st rest) eq_refl). reflexivity.
Qed.

(** ** Lines that do not come back *)
Lemma confirm_never : forall k st, Forall (fun x => ~ says_yes x /\ ~ says_no x /\ forallb is_7bit x = true) (st_in st) -> fst (confirm k st) = NoFuel.
Proof.
  induction k as [|k IH]; intros st F; [reflexivity|]. cbn [confirm]. unfold bind at 1, read_line at 1. destruct (st_in st) as [|x rest] eqn:E.
  - unfold bind at 1, lift at 1. change (ToUpper []) with (@Val str []). cbv iota. change (str_eqb [] $"Y" || str_eqb [] $"YES") with false. change (str_eqb [] $"N" || str_eqb [] $"NO") with false. cbv iota.
    apply IH. rewrite E. constructor.
  - inversion F as [|? ? (NY & NN & B7) F']; subst. unfold bind at 1, lift at 1, ToUpper. rewrite B7, capital_upper.
    assert (N : forall t, In t [$"Y"; $"YES"; $"N"; $"NO"] -> str_eqb (map capital x) t = false).
    { intros t I. destruct (str_eqb (map capital x) t) eqn:X; [|reflexivity]. apply str_eqb_eq in X. exfalso. unfold says_yes, says_no in *. rewrite X in *. cbn [In] in *. tauto. }
    rewrite !N by (cbn [In]; tauto). cbn [orb]. apply IH. exact F'.
Qed.
Lemma clear_never : forall main g top cur script st rest, typed st $"clear" rest -> Forall (fun x => ~ says_yes x /\ ~ says_no x /\ forallb is_7bit x = true) rest ->
  forall o st', ~ at_prompt main g top cur script st o st'.
Proof.
  intros main g top cur script st rest T F o st' (n & R & N). destruct n as [|n]; [cbn in R; injection R as R _; subst; contradiction N; reflexivity|].
  rewrite (loop_obeys _ _ _ _ _ _ _ _ _ _ T) in R. unfold obey in R. change (command_of $"clear") with CClear in R. cbv iota in R. unfold bind at 1, cmd_clear in R.
  change (let? t := substr_from $"clear" 5 in Trim t) with (@Val str []) in R. unfold bind at 1, lift at 1 in R. unfold bind at 1, write_line at 1, write_out at 1 in R. unfold bind at 1 in R.
  match type of R with context [confirm ?k ?s] => pose proof (confirm_never k s F) as C; destruct (confirm k s) as (c & s1) end. cbn [fst] in C. subst c. injection R as R _. apply N. symmetry. exact R.
Qed.
Lemma literal_all : forall t, ~ In c_dquote t -> string_literal t = t.
Proof.
  induction t as [|c t IH]; intro N; [reflexivity|]. cbn [string_literal]. destruct (Ascii.eqb c c_dquote) eqn:E; [apply Ascii.eqb_eq in E; subst; exfalso; apply N; left; reflexivity|].
  rewrite IH; [reflexivity|]. intro I. apply N. right. exact I.
Qed.
Lemma quote_parse : forall w name m, In w [$"b "; $"break "] -> ~ In c_dquote name -> tight (w ++ [c_dquote] ++ name) -> forallb is_7bit (w ++ [c_dquote] ++ name) = true ->
  parse_break (w ++ [c_dquote] ++ name) m = Throw EOutOfRange.
Proof.
  intros w name m IW NQ TI B. unfold parse_break.
  assert (B2 : forallb is_7bit ([c_dquote] ++ name) = true) by (rewrite forallb_app in B; apply andb_true_iff in B; apply B).
  assert (T2 : tight ([c_dquote] ++ name)).
  { apply (tight_ends [c_dquote] ([c_dquote] ++ name)); [discriminate|discriminate|reflexivity| |exists name; reflexivity|exists []; reflexivity].
    assert (X : exists c r, w = c :: r) by (repeat destruct IW as [<-|IW]; try contradiction; eexists; eexists; reflexivity). destruct X as (c & r & ->). cbn [app tight] in TI.
    destruct TI as (_ & TI). change (c :: r ++ c_dquote :: name) with ((c :: r) ++ ([c_dquote] ++ name)) in TI. rewrite last_app_r in TI by discriminate.
    rewrite (last_change _ _ " "%char c) by discriminate. exact TI. }
  assert (E1 : match find $" " (w ++ [c_dquote] ++ name) with Some p => let? t := substr_from (w ++ [c_dquote] ++ name) p in Trim t | None => Throw EOutOfRange end = Val ([c_dquote] ++ name)).
  { assert (X : exists w0, w = w0 ++ [" "%char] /\ ~ In " "%char w0).
    { repeat destruct IW as [<-|IW]; try contradiction; [exists $"b"|exists $"break"]; (split; [reflexivity|cbn; intuition discriminate]). }
    destruct X as (w0 & -> & N0). rewrite <- app_assoc. change ([" "%char] ++ [c_dquote] ++ name) with (" "%char :: [c_dquote] ++ name). change $" " with [" "%char]. rewrite (find_at _ _ _ N0), after_len. cbn [obind].
    change (" "%char :: [c_dquote] ++ name) with ($" " ++ ([c_dquote] ++ name)). apply trim_space; [exact T2|exact B2]. }
  rewrite E1. cbn [obind app]. rewrite Ascii.eqb_refl. cbv zeta. rewrite (literal_all name NQ).
  assert (S1 : substr_from (c_dquote :: name) (length name + 2) = Throw EOutOfRange).
  { unfold substr_from. cbn [length]. destruct (Nat.ltb_spec (S (length name)) (length name + 2)); [reflexivity|lia]. }
  rewrite S1. reflexivity.
Qed.
Lemma quote_ends : forall main g top cur script st w name rest sc, In w [$"b "; $"break "] -> typed st (w ++ [c_dquote] ++ name) rest -> ~ In c_dquote name -> scope_at st cur = Some sc ->
  forall o st', at_prompt main g top cur script st o st' <-> o = Throw EOutOfRange /\ st' = answered st rest.
Proof.
  intros main g top cur script st w name rest sc I T NQ E. apply prompt_ends; [|discriminate]. intros n k _. rewrite (loop_obeys _ _ _ _ _ _ _ _ _ _ T).
  assert (CO : command_of (w ++ [c_dquote] ++ name) = CBreakpoint) by (repeat destruct I as [<-|I]; try contradiction; reflexivity).
  assert (PB : parse_break (w ++ [c_dquote] ++ name) (s_module sc) = Throw EOutOfRange).
  { apply quote_parse; [exact I|exact NQ| |exact (typed_7bit _ _ _ T)]. destruct T as (line & _ & (a & b & _ & _ & _ & TI) & _). exact TI. }
  unfold obey. rewrite CO. unfold bind at 1, reads at 1. rewrite (answered_scope _ _ _ _ E). unfold cmd_break. unfold bind at 1, bind at 1, lift at 1. rewrite PB. reflexivity.
Qed.

(** ** Witnesses *)
(** The name of a variable alone is no list, so its value is not shown. *)
Lemma variable_not_shown : exists st x sc i v st', st = resting [$"x"; $"exit"] /\ x = $"x" /\ typed st x [$"exit"] /\ ~ a_command x /\ scope_at st 2%positive = Some sc /\
  first_var (s_vars sc) x (P i (OVar v)) /\ is_int v 5 /\
  at_prompt false main_sid 2%positive 2%positive [] st (Throw EStopDebugger) st' /\ st_out st' = prompt ++ $"Exception: List expected in do" ++ [c_nl] ++ prompt.
Proof.
  exists (resting [$"x"; $"exit"]), $"x", (frame_f $"m"), 84%positive, (vint 5). eexists. split; [reflexivity|]. split; [reflexivity|]. split; [eexists; split; [reflexivity|]; split; [exists [], []; repeat split; constructor|reflexivity]|].
  split. { intros [I|(p & I & (r & E))]; [cbv in I; intuition discriminate|]. repeat destruct I as [<-|I]; try contradiction; discriminate. }
  split; [reflexivity|]. split; [eexists [_; _; _], []; split; [reflexivity|cbv; intuition discriminate]|]. split; [split; reflexivity|].
  split; [apply (at_prompt_by 40); [vm_compute; reflexivity|discriminate]|vm_compute; reflexivity].
Qed.
