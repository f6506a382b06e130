(** What the debugger shows: the program, the breakpoints, the call stack, the variables. *)
Require Import String Ascii List ZArith Bool Lia.
Require Import PArith FMapPositive.
From Verif Require Import Base CppString Num Token Tokenizer Parser Value State Show ScopeOps Builtins Table Eval LispTop Debugger Cli
  SpecRun SpecVal SpecText SpecLex SpecNum SpecForm SpecDebug SpecCli SpecShow ClassifyProofs FuelProofs RelProofs TextProofs BuiltinProofs StrProofs NumProofs RunProofs ErrProofs DictProofs FormProofs DebugProofs CliProofs PromptProofs.
Import ListNotations.

(** ** Lines with columns *)
Lemma wide_ok : forall k z, is_digit k = true -> (-2147483648 < z <= 2147483647)%Z -> piece_ok (PWide k (z_to_string z) z).
Proof. intros k z D B. split; [exact D|split; [apply z_to_string_int_text|exact B]]. Qed.
Lemma lit_ok : forall t, existsb (Ascii.eqb c_open) t = false -> piece_ok (PLit t).
Proof.
  intros t E H. assert (X : existsb (Ascii.eqb c_open) t = true); [|congruence]. apply existsb_exists. exists c_open. split; [exact H|apply Ascii.eqb_refl].
Qed.
Ltac pieces := repeat (apply Forall_cons || apply Forall_nil);
  [match goal with
   | |- piece_ok (PLit _) => apply lit_ok; reflexivity
   | |- piece_ok (PHole _) => reflexivity
   | |- piece_ok (PWide ?k _ ?z) => exact (wide_ok k z eq_refl ltac:(lia))
   end ..].
Lemma fine_is : forall t, fine_text t -> fine_arg t.
Proof. intros t (A & B). split; [exact A|exact B]. Qed.
Lemma code_format : forall a b c d : str, fine_arg a -> fine_arg b -> fine_arg c -> fine_arg d ->
  Format $"{0,3} {1,2} {2,3} {3}" [a; b; c; d] = Val (padded 3 a ++ $" " ++ padded 2 b ++ $" " ++ padded 3 c ++ $" " ++ d).
Proof.
  intros a b c d A B C D.
  change ($"{0,3} {1,2} {2,3} {3}" : str) with (template [PWide "0"%char $"3" 3; PLit $" "; PWide "1"%char $"2" 2; PLit $" "; PWide "2"%char $"3" 3; PLit $" "; PHole "3"%char]).
  rewrite Format_full.
  - cbn [fill_all digits5 list_ascii_of_string fill_hole fill_wide Ascii.eqb Bool.eqb template flat_map piece_text app]. rewrite !app_nil_r. reflexivity.
  - pieces.
  - repeat (apply Forall_cons || apply Forall_nil); assumption.
  - cbn [length skipn digits5 list_ascii_of_string]. intros k [<-|[]] [H|(wt & w & H)]; cbn in H; intuition discriminate.
Qed.
Lemma break_format : forall a b c d : str, fine_arg a -> fine_arg b -> fine_arg c -> fine_arg d ->
  Format $"#{0,-3} line={1,-5} module={2,-25} condition={3}" [a; b; c; d] =
  Val ($"#" ++ padded (-3) a ++ $" line=" ++ padded (-5) b ++ $" module=" ++ padded (-25) c ++ $" condition=" ++ d).
Proof.
  intros a b c d A B C D.
  change ($"#{0,-3} line={1,-5} module={2,-25} condition={3}" : str) with
    (template [PLit $"#"; PWide "0"%char $"-3" (-3); PLit $" line="; PWide "1"%char $"-5" (-5); PLit $" module="; PWide "2"%char $"-25" (-25); PLit $" condition="; PHole "3"%char]).
  rewrite Format_full.
  - cbn [fill_all digits5 list_ascii_of_string fill_hole fill_wide Ascii.eqb Bool.eqb template flat_map piece_text]. rewrite !app_nil_r. reflexivity.
  - pieces.
  - repeat (apply Forall_cons || apply Forall_nil); assumption.
  - cbn [length skipn digits5 list_ascii_of_string]. intros k [<-|[]] [H|(wt & w & H)]; cbn in H; intuition discriminate.
Qed.
Lemma frame_format : forall a b c d e : str, fine_arg a -> fine_arg b -> fine_arg c -> fine_arg d -> fine_arg e ->
  Format ($"{0,3}{1,5} name={2,-35} lineno={3,-4} module={4}" ++ [c_nl]) [a; b; c; d; e] =
  Val (padded 3 a ++ padded 5 b ++ $" name=" ++ padded (-35) c ++ $" lineno=" ++ padded (-4) d ++ $" module=" ++ e ++ [c_nl]).
Proof.
  intros a b c d e A B C D E.
  change ($"{0,3}{1,5} name={2,-35} lineno={3,-4} module={4}" ++ [c_nl]) with
    (template [PWide "0"%char $"3" 3; PWide "1"%char $"5" 5; PLit $" name="; PWide "2"%char $"-35" (-35); PLit $" lineno="; PWide "3"%char $"-4" (-4);
               PLit $" module="; PHole "4"%char; PLit [c_nl]]).
  rewrite Format_full.
  - cbn [fill_all digits5 list_ascii_of_string fill_hole fill_wide Ascii.eqb Bool.eqb template flat_map piece_text]. rewrite !app_nil_r. reflexivity.
  - pieces.
  - repeat (apply Forall_cons || apply Forall_nil); assumption.
  - cbn [length skipn digits5 list_ascii_of_string]. intros k [].
Qed.
Lemma var_format : forall a b c : str, fine_arg a -> fine_arg b -> fine_arg c ->
  Format $"{0,20} --> {1,-40} : {2} {3}" [a; b; c; []] = Val (padded 20 a ++ $" --> " ++ padded (-40) b ++ $" : " ++ c ++ $" ").
Proof.
  intros a b c A B C.
  change ($"{0,20} --> {1,-40} : {2} {3}" : str) with
    (template [PWide "0"%char $"20" 20; PLit $" --> "; PWide "1"%char $"-40" (-40); PLit $" : "; PHole "2"%char; PLit $" "; PHole "3"%char]).
  rewrite Format_full.
  - cbn [fill_all digits5 list_ascii_of_string fill_hole fill_wide Ascii.eqb Bool.eqb template flat_map piece_text]. rewrite !app_nil_r. reflexivity.
  - pieces.
  - repeat (apply Forall_cons || apply Forall_nil); try assumption. split; [intros []|discriminate].
  - cbn [length skipn digits5 list_ascii_of_string]. intros k [<-|[]] [H|(wt & w & H)]; cbn in H; intuition discriminate.
Qed.
Lemma fine_lit : forall t, existsb (Ascii.eqb c_open) t = false -> str_eqb t NULL_STRING = false -> fine_arg t.
Proof. intros t A B. split; [exact (lit_ok t A)|]. intros ->. rewrite str_eqb_refl in B. discriminate. Qed.
Lemma write_fmt_is : forall fmt args t st, Format fmt args = Val t -> write_fmt fmt args st = (Val tt, wrote (t ++ [c_nl]) st).
Proof. intros fmt args t st E. unfold write_fmt, bind, lift. rewrite E. reflexivity. Qed.
Lemma wrote_wrote : forall a b st, wrote b (wrote a st) = wrote (a ++ b) st.
Proof. intros a b st. unfold wrote. cbn [st_out with_out]. rewrite <- app_assoc. reflexivity. Qed.
Lemma wrote_nil : forall st, wrote [] st = st.
Proof. intros []. unfold wrote, with_out. cbn. rewrite app_nil_r. reflexivity. Qed.

(** ** The program *)
Lemma has_bp_spec : forall no m d, (has_breakpoint no m d = true -> exists b, In b (d_bps d) /\ covers b no m) /\ (has_breakpoint no m d = false -> none_covering (d_bps d) no m).
Proof.
  intros no m d. unfold has_breakpoint. pose proof (find_covering (d_bps d) no m) as H. destruct (List.find (bp_at no m) (d_bps d)) as [b|]; split; intro E; try discriminate.
  - destruct H as (l1 & l2 & -> & C & _). exists b. split; [apply in_or_app; right; left; reflexivity|exact C].
  - exact H.
Qed.
Lemma show_code_writes : forall m now ls no t, Forall fine_text ls -> forall st, listed (d_bps (st_dbg st)) m now no ls t ->
  show_code ls no m now st = (Val tt, wrote t st).
Proof.
  intros m now ls. induction ls as [|l ls IH]; intros no t F st L; inversion L as [|no' l' ls' mark arrow t' B A L']; subst; cbn [show_code].
  - rewrite wrote_nil. reflexivity.
  - inversion F as [|? ? F1 F2]; subst. unfold bind at 1, the_dbg at 1, reads at 1.
    set (d := st_dbg st). destruct (has_bp_spec no m d) as (H1 & H2).
    assert (E : Format $"{0,3} {1,2} {2,3} {3}" [z_to_string no; if has_breakpoint no m d then $"B " else $"  "; if (now =? no)%Z then $"-->" else []; l]
                = Val (padded 3 (z_to_string no) ++ $" " ++ mark ++ $" " ++ arrow ++ $" " ++ l)).
    { rewrite code_format; [|apply int_no_brace| | |apply fine_is, F1].
      - destruct (has_breakpoint no m d); destruct (Z.eqb_spec now no) as [Q|Q].
        all: destruct B as [(-> & b & I & C)|(-> & N)]; try (specialize (H1 eq_refl); destruct H1 as (b' & I' & C'); unfold none_covering in N; rewrite Forall_forall in N; exact (False_ind _ (N b' I' C')));
             try (specialize (H2 eq_refl); unfold none_covering in H2; rewrite Forall_forall in H2; exact (False_ind _ (H2 b I C))).
        all: destruct A as [(-> & Q2)|(-> & Q2)]; try congruence; reflexivity.
      - destruct (has_breakpoint no m d); apply fine_lit; reflexivity.
      - destruct (now =? no)%Z; apply fine_lit; reflexivity. }
    unfold bind at 1. rewrite (write_fmt_is _ _ _ _ E). rewrite (IH (no + 1)%Z t' F2 (wrote _ st)).
    + rewrite wrote_wrote. rewrite <- !app_assoc. reflexivity.
    + exact L'.
Qed.
Lemma current_is : forall sc l, now_at sc l -> current_line sc = l.
Proof. intros sc l (t & E & <- & B). unfold current_line. rewrite E. unfold to_size. apply Z.mod_small. exact B. Qed.
Lemma answered_scope : forall st rest s sc, scope_at st s = Some sc -> get_scope s (answered st rest) = Val sc.
Proof. intros st rest s sc E. unfold get_scope, scope_at in *. cbn [st_scopes answered with_in with_out]. rewrite E. reflexivity. Qed.
Lemma prefix_from : forall m, prefixb k_evalstrtag m = true -> from_text m.
Proof. intros m E. apply TextProofs.prefixb_spec in E. destruct E as (r & ->). exists r. reflexivity. Qed.
Lemma obey_code : forall R k main g top cur script w st, In w [$"code"; $"c"] ->
  obey R k main g top cur script w st = bind (cmd_code script cur) (fun _ => dbg_loop R k main g top cur script) st.
Proof. intros R k main g top cur script w st I. repeat destruct I as [<-|I]; try contradiction; reflexivity. Qed.
Lemma code_command : forall main g top cur script st w rest sc now text ls shown, typed st w rest -> In w [$"code"; $"c"] -> scope_at st cur = Some sc ->
  now_at sc now -> ~ from_text (s_module sc) -> program_text st (s_module sc) script text ->
  ls <> [] -> Forall is_line ls -> join_lines ls = text -> Forall fine_text ls -> listed (d_bps (st_dbg st)) (s_module sc) now 1 ls shown ->
  forall o st', at_prompt main g top cur script st o st' <-> at_prompt main g top cur script (wrote shown (answered st rest)) o st'.
Proof.
  intros main g top cur script st w rest sc now text ls shown T I E N NF PT NE IL J F L.
  apply prompt_goes_on. intros n k _. rewrite (loop_obeys _ _ _ _ _ _ _ _ _ _ T), (obey_code _ _ _ _ _ _ _ _ _ I).
  set (st1 := answered st rest). assert (G := answered_scope st rest cur sc E). fold st1 in G.
  assert (C : cmd_code script cur st1 = show_code ls 1 (s_module sc) now st1).
  { unfold cmd_code. unfold bind at 1, reads at 1. rewrite G.
    assert (X : exists t0, (match s_module sc with [] => ret script | _ :: _ =>
        if prefixb k_evalstrtag (s_module sc) then match find_from $":" (s_module sc) (length k_evalstrtag) with
          | Some p => lift (substr_from (s_module sc) (length k_evalstrtag + p)) | None => lift (substr_from (s_module sc) (length k_evalstrtag - 1)) end
        else reads (read_file (s_module sc)) end) st1 = (Val t0, st1) /\ match t0 with [] => d_script (st_dbg st1) | _ => t0 end = text).
    { assert (P : prefixb k_evalstrtag (s_module sc) = false) by (destruct (prefixb k_evalstrtag (s_module sc)) eqn:P; [destruct (NF (prefix_from _ P))|reflexivity]).
      assert (R : forall t0, c_string (s_module sc) -> file_text st (s_module sc) t0 -> read_file (s_module sc) st1 = Val t0).
      { intros t0 CS FT. apply (read_is st1 (s_module sc) t0 CS). destruct FT as [l1 t0 l2 A B|A]; [apply (ft_there _ _ l1 t0 l2); [exact A|exact B]|apply ft_missing; exact A]. }
      rewrite P. destruct PT as [EM ES|t0 EM CS FT EN|[(EM & ES)|(EM & CS & FT)]].
      - rewrite EM. exists script. split; [reflexivity|]. destruct script; [congruence|reflexivity].
      - exists t0. split; [|destruct t0; [congruence|reflexivity]]. destruct (s_module sc) eqn:M; [congruence|]. unfold reads. rewrite (R t0 CS FT). reflexivity.
      - rewrite EM, ES. exists []. split; reflexivity.
      - exists []. split; [|reflexivity]. destruct (s_module sc) eqn:M; [congruence|]. unfold reads. rewrite (R [] CS FT). reflexivity. }
    destruct X as (t0 & X1 & X2). cbv zeta. unfold bind at 1. rewrite X1. unfold bind at 1, the_dbg at 1, reads at 1. rewrite X2.
    unfold bind at 1, lift at 1. rewrite <- J, (Split_join ls NE IL). rewrite (current_is sc now N). reflexivity. }
  unfold bind at 1. rewrite C. rewrite (show_code_writes (s_module sc) now ls 1 shown F st1 L). reflexivity.
Qed.
(** Code run by evalstr: the first nine characters are missing. *)
Lemma code_of_text : forall main g top cur script st w rest sc now a text ls shown, typed st w rest -> In w [$"code"; $"c"] -> scope_at st cur = Some sc ->
  now_at sc now -> s_module sc = $"<evalstr>:" ++ a ++ $":" ++ text -> ~ In ":"%char a ->
  (forall cut r, text = cut ++ r -> length cut = 9%nat -> r <> [] -> ls <> [] -> Forall is_line ls -> join_lines ls = r -> Forall fine_text ls ->
     listed (d_bps (st_dbg st)) (s_module sc) now 1 ls shown ->
     forall o st', at_prompt main g top cur script st o st' <-> at_prompt main g top cur script (wrote shown (answered st rest)) o st') /\
  ((length text < 9)%nat -> forall o st', at_prompt main g top cur script st o st' <-> o = Throw EOutOfRange /\ st' = answered st rest).
Proof.
  intros main g top cur script st w rest sc now a text ls shown T I E N M NC.
  set (st1 := answered st rest). assert (G := answered_scope st rest cur sc E). fold st1 in G.
  assert (C : cmd_code script cur st1 = bind (lift (substr_from (s_module sc) (20 + length a))) (fun t => bind the_dbg (fun d =>
     let t1 := match t with [] => d_script d | _ => t end in bind (lift (Split t1 [c_nl])) (fun lines => show_code lines 1 (s_module sc) (current_line sc)))) st1).
  { unfold cmd_code. unfold bind at 1, reads at 1. rewrite G. cbv zeta.
    assert (P : prefixb k_evalstrtag (s_module sc) = true) by (rewrite M; reflexivity).
    assert (FF : find_from $":" (s_module sc) (length k_evalstrtag) = Some (10 + length a)%nat).
    { rewrite M. change (length k_evalstrtag) with (length ($"<evalstr>:" : str)). rewrite find_from_app. change (CppString.find $":" (a ++ $":" ++ text)) with (CppString.find [":"%char] (a ++ ":"%char :: text)). rewrite (find_at ":"%char a text NC). reflexivity. }
    rewrite P, FF. assert (NE : exists c m', s_module sc = c :: m') by (rewrite M; eexists; eexists; reflexivity). destruct NE as (c & m' & NE). rewrite NE at 1.
    replace (length k_evalstrtag + (10 + length a))%nat with (20 + length a)%nat by reflexivity. reflexivity. }
  assert (LM : length (s_module sc) = (11 + length a + length text)%nat) by (rewrite M, !app_length; cbn [length list_ascii_of_string]; lia).
  split.
  - intros cut r ET EL RN NE IL J F L. apply prompt_goes_on. intros n k _. rewrite (loop_obeys _ _ _ _ _ _ _ _ _ _ T), (obey_code _ _ _ _ _ _ _ _ _ I). fold st1.
    unfold bind at 1. rewrite C. unfold bind at 1, lift at 1, substr_from. rewrite LM. 
    destruct (Nat.ltb_spec (11 + length a + length text) (20 + length a)) as [Q|Q]; [rewrite ET, app_length in Q; lia|].
    assert (SK : skipn (20 + length a) (s_module sc) = r).
    { rewrite M, ET. replace ($"<evalstr>:" ++ a ++ $":" ++ cut ++ r) with (($"<evalstr>:" ++ a ++ $":" ++ cut) ++ r) by (rewrite <- !app_assoc; reflexivity).
      rewrite skipn_app. rewrite skipn_all2; [|rewrite !app_length; cbn [length list_ascii_of_string]; lia].
      replace (20 + length a - length ($"<evalstr>:" ++ a ++ $":" ++ cut))%nat with 0%nat; [reflexivity|]. rewrite !app_length; cbn [length list_ascii_of_string]; lia. }
    rewrite SK. unfold bind at 1, the_dbg at 1, reads at 1. cbv zeta. destruct r as [|x r]; [congruence|].
    unfold bind at 1, lift at 1. rewrite <- J, (Split_join ls NE IL). rewrite (current_is sc now N). rewrite (show_code_writes (s_module sc) now ls 1 shown F st1 L). reflexivity.
  - intro SH. apply prompt_ends; [|discriminate]. intros n k _. rewrite (loop_obeys _ _ _ _ _ _ _ _ _ _ T), (obey_code _ _ _ _ _ _ _ _ _ I). fold st1.
    unfold bind at 1. rewrite C. unfold bind at 1, lift at 1, substr_from. rewrite LM.
    destruct (Nat.ltb_spec (11 + length a + length text) (20 + length a)) as [Q|Q]; [reflexivity|lia].
Qed.

(** ** The breakpoints *)
Lemma show_bps_writes : forall bps no t, numbered no bps t -> Forall fine_break bps -> forall st, show_bps no bps st = (Val tt, wrote t st).
Proof.
  intros bps no t H. induction H as [no|no l m c bps t H IH]; intros F st; cbn [show_bps].
  - rewrite wrote_nil. reflexivity.
  - inversion F as [|? ? (F1 & F2) F3]; subst. cbn [bp_line bp_module bp_cond] in *.
    unfold bind at 1. rewrite (write_fmt_is _ _ _ _ (break_format _ _ _ _ (int_no_brace no) (int_no_brace l) (fine_is _ F1) (fine_is _ F2))).
    rewrite (IH F3). rewrite wrote_wrote. rewrite <- !app_assoc. reflexivity.
Qed.
Lemma list_command : forall main g top cur script st w rest t, typed st w rest -> In w [$"list"; $"t"] -> Forall fine_break (d_bps (st_dbg st)) -> numbered 1 (d_bps (st_dbg st)) t ->
  forall o st', at_prompt main g top cur script st o st' <-> at_prompt main g top cur script (wrote ($"Breakpoints:" ++ [c_nl] ++ t) (answered st rest)) o st'.
Proof.
  intros main g top cur script st w rest t T I F NB. apply prompt_goes_on. intros n k _. rewrite (loop_obeys _ _ _ _ _ _ _ _ _ _ T).
  assert (O : obey (drun n) k main g top cur script w (answered st rest) = bind cmd_list (fun _ => dbg_loop (drun n) k main g top cur script) (answered st rest))
    by (repeat destruct I as [<-|I]; try contradiction; reflexivity).
  rewrite O. unfold bind at 1, cmd_list, bind at 1, write_line, write_out at 1, bind at 1, the_dbg at 1, reads at 1.
  change (with_out (st_out (answered st rest) ++ ($"Breakpoints:" ++ [c_nl])) (answered st rest)) with (wrote ($"Breakpoints:" ++ [c_nl]) (answered st rest)).
  change (d_bps (st_dbg (wrote ($"Breakpoints:" ++ [c_nl]) (answered st rest)))) with (d_bps (st_dbg st)).
  rewrite (show_bps_writes _ _ _ NB F). rewrite wrote_wrote, <- app_assoc. reflexivity.
Qed.

(** ** The call stack *)
Lemma stack_line_is : forall n i sc l, line_text sc l -> fine_text (s_name sc) -> fine_text (s_module sc) ->
  stack_line (Some n) i sc = Val (frame_line n i (s_name sc) l (s_module sc)).
Proof.
  intros n i sc l L F1 F2. unfold stack_line.
  assert (EL : match s_token sc with Some t => z_to_string (tk_line t) | None => size_max_str end = l) by (destruct L as [(k & -> & ->)|(-> & ->)]; reflexivity).
  rewrite EL. rewrite frame_format; [| |apply int_no_brace|apply fine_is, F1| |apply fine_is, F2].
  - unfold frame_line. destruct (n =? i)%Z; reflexivity.
  - destruct (n =? i)%Z; apply fine_lit; reflexivity.
  - rewrite <- EL. destruct (s_token sc); [apply int_no_brace|apply fine_lit; reflexivity].
Qed.
Lemma dump_is : forall st n s d t, stack_text st n s d t -> fine_frames st s -> forall k, (Pos.to_nat s <= k)%nat ->
  exists scs, stack_of k s st = Val scs /\ Z.of_nat (length scs) = d /\ forall acc, dump_lines (Some n) scs acc = Val (t ++ acc).
Proof.
  intros st n s d t H. induction H as [s sc l E P L|s sc p d t l E P LT L H IH]; intros FF k LK; (destruct k as [|k]; [lia|]); cbn [stack_of]; rewrite (get_at _ _ _ E); cbn [obind]; rewrite P.
  - exists [sc]. split; [reflexivity|]. split; [reflexivity|]. intro acc. cbn [dump_lines length Z.of_nat].
    inversion FF as [? sc' E' P' F1 F2|? sc' p' E' P' F1 F2 FF']; subst; rewrite E in E'; injection E' as <-; rewrite (stack_line_is n _ sc l L F1 F2); reflexivity.
  - inversion FF as [? sc' E' P' F1 F2|? sc' p' E' P' F1 F2 FF']; subst; rewrite E in E'; injection E' as <-; [congruence|]. rewrite P in P'. injection P' as <-.
    destruct (IH FF' k ltac:(lia)) as (scs & ES & EL & D). rewrite ES. cbn [obind]. exists (sc :: scs). split; [reflexivity|]. cbn [length].
    split; [lia|]. intro acc. cbn [dump_lines length]. replace (Z.of_nat (S (length scs))) with (d + 1)%Z by lia. rewrite (stack_line_is n _ sc l L F1 F2). cbn [obind].
    rewrite D. rewrite app_assoc. reflexivity.
Qed.
Lemma stack_same : forall st st' n s d t, st_scopes st' = st_scopes st -> stack_text st n s d t -> stack_text st' n s d t.
Proof.
  intros st st' n s d t E H. assert (Q : forall u, scope_at st' u = scope_at st u) by (intro u; unfold scope_at; rewrite E; reflexivity).
  induction H; [eapply sk_one|eapply sk_more]; try rewrite Q; eauto.
Qed.
Lemma fine_same : forall st st' s, st_scopes st' = st_scopes st -> fine_frames st s -> fine_frames st' s.
Proof.
  intros st st' s E H. assert (Q : forall u, scope_at st' u = scope_at st u) by (intro u; unfold scope_at; rewrite E; reflexivity).
  induction H; [eapply ff_one|eapply ff_more]; try rewrite Q; eauto.
Qed.
Lemma stack_command : forall main g top cur script st w rest n d t, typed st w rest -> In w [$"stack"; $"k"] -> depth_at st cur n -> fine_frames st top -> stack_text st n top d t ->
  forall o st', at_prompt main g top cur script st o st' <-> at_prompt main g top cur script (wrote (t ++ [c_nl]) (answered st rest)) o st'.
Proof.
  intros main g top cur script st w rest n d t T I D F SK. apply prompt_goes_on. intros j k _. rewrite (loop_obeys _ _ _ _ _ _ _ _ _ _ T).
  set (st1 := answered st rest).
  assert (D' := depth_val _ _ _ (depth_same st st1 cur n eq_refl D)).
  destruct (dump_is st1 n top d t (stack_same st st1 n top d t eq_refl SK) (fine_same st st1 top eq_refl F) (Pos.to_nat top) ltac:(lia)) as (scs & ES & _ & DL).
  assert (O : obey (drun j) k main g top cur script w st1 = bind (depth_of cur) (fun z => bind (reads (dump_stack (Some z) top)) (fun x => bind (write_line x) (fun _ => dbg_loop (drun j) k main g top cur script))) st1)
    by (repeat destruct I as [<-|I]; try contradiction; reflexivity).
  rewrite O. unfold bind at 1. rewrite D'. unfold bind at 1, reads at 1, dump_stack, call_stack. rewrite ES. cbn [obind]. rewrite DL, app_nil_r. reflexivity.
Qed.

(** ** Variables *)
Lemma displayed_dbg : forall v d k st, displayed v d k -> var_dbg v st = Val d /\ type_string v = Val k.
Proof.
  intros v d k st H. unfold var_dbg, show_fuel. destruct H as [v z (T & V)|v b (T & V)|v f (T & V)|v t (T & V)|v t (T & V)|v T|v f T V B]; unfold type_string; rewrite T; (split; [|reflexivity]);
    cbn [Nat.add show]; unfold is_ty; rewrite T; try change (ltype_eqb TString TString) with true;
    try match goal with |- context [ltype_eqb ?a TString] => change (ltype_eqb a TString) with false end; cbv iota; cbn [show]; rewrite ?T, ?V; reflexivity.
Qed.
Lemma not_internal : forall n, (forall r, n <> $"###" ++ r) -> prefixb k_metatag n = false.
Proof. intros n H. destruct (prefixb k_metatag n) eqn:P; [|reflexivity]. apply TextProofs.prefixb_spec in P. destruct P as (r & E). destruct (H r E). Qed.
Lemma displayed_kind : forall v d k, displayed v d k -> fine_arg k.
Proof. intros v d k []; apply fine_lit; reflexivity. Qed.
Lemma displayed_chosen : forall v d k st, displayed v d k ->
  (if is_ty TFun v then bind (reads (function_value v)) (fun f => ret (negb (fn_bi f))) else ret true) st = (Val true, st).
Proof.
  intros v d k st H. unfold is_ty. destruct H as [v z (T & V)|v b (T & V)|v f (T & V)|v t (T & V)|v t (T & V)|v T|v f T V B]; rewrite T;
    try match goal with |- context [ltype_eqb ?a TFun] => change (ltype_eqb a TFun) with false; reflexivity end.
  change (ltype_eqb TFun TFun) with true. cbv iota. unfold bind, reads, function_value. unfold is_ty. rewrite T, V. change (ltype_eqb TFun TFun) with true. cbv iota. rewrite B. reflexivity.
Qed.
Lemma dump_vars_writes : forall vs t, variables_text vs t -> forall st, dump_vars vs st = (Val tt, wrote t st).
Proof.
  intros vs t H. induction H as [|n p vs t H IH|n i v f vs t NI T V B H IH|n i v d k vs t NI D FN FD H IH]; intro st; cbn [dump_vars].
  - rewrite wrote_nil. reflexivity.
  - unfold bind at 1. change (prefixb k_metatag ($"###" ++ n)) with true. cbv iota. unfold ret at 1. apply IH.
  - unfold bind at 1. rewrite (not_internal n NI). unfold bind at 1, lift at 1. cbn [vref vref_obj].
    assert (E : (if is_ty TFun v then bind (reads (function_value v)) (fun f => ret (negb (fn_bi f))) else ret true) st = (Val false, st)).
    { unfold is_ty at 1. rewrite T. change (ltype_eqb TFun TFun) with true. cbv iota. unfold bind, reads, function_value. unfold is_ty. rewrite T, V. change (ltype_eqb TFun TFun) with true. cbv iota. rewrite B. reflexivity. }
    unfold bind at 1. rewrite E. cbv iota. unfold ret at 1. apply IH.
  - unfold bind at 1. rewrite (not_internal n NI). unfold bind at 1, lift at 1. cbn [vref vref_obj].
    unfold bind at 1. rewrite (displayed_chosen v d k st D). cbv iota. destruct (displayed_dbg v d k st D) as (D1 & D2).
    unfold bind at 1, reads at 1. rewrite D1. unfold bind at 1, lift at 1. rewrite D2.
    rewrite (write_fmt_is _ _ _ _ (var_format n d k (fine_is _ FN) (fine_is _ FD) (displayed_kind v d k D))). rewrite IH, wrote_wrote, <- !app_assoc. reflexivity.
Qed.
Lemma variables_command : forall main g top cur script st w rest s sc t, typed st w rest ->
  (In w [$"locals"; $"l"] /\ s = cur) \/ (In w [$"globals"; $"g"] /\ s = g) -> scope_at st s = Some sc -> variables_text (s_vars sc) t ->
  forall o st', at_prompt main g top cur script st o st' <-> at_prompt main g top cur script (wrote t (answered st rest)) o st'.
Proof.
  intros main g top cur script st w rest s sc t T I E VT. apply prompt_goes_on. intros n k _. rewrite (loop_obeys _ _ _ _ _ _ _ _ _ _ T).
  assert (O : obey (drun n) k main g top cur script w (answered st rest) = bind (reads (get_scope s)) (fun sc => bind (dump_vars (s_vars sc)) (fun _ => dbg_loop (drun n) k main g top cur script)) (answered st rest))
    by (destruct I as [(I & ->)|(I & ->)]; repeat destruct I as [<-|I]; try contradiction; reflexivity).
  rewrite O. unfold bind at 1, reads at 1. rewrite (answered_scope _ _ _ _ E). unfold bind at 1. rewrite (dump_vars_writes _ _ VT). reflexivity.
Qed.
Lemma at_prompt_by : forall n main g top cur script st o, fst (dbg_loop (drun n) n main g top cur script st) = o -> o <> NoFuel ->
  at_prompt main g top cur script st o (snd (dbg_loop (drun n) n main g top cur script st)).
Proof. intros n main g top cur script st o E N. exists n. split; [rewrite <- E; apply surjective_pairing|exact N]. Qed.
Lemma code_braces : exists st', at_prompt false main_sid 2%positive 2%positive [] (looking_in $"n" [$"code"; $"run"]) (Throw (ELispBase $"Not enough items for format string: {0,3} {1,2} {2,3} {3}")) st' /\ st_in st' = [$"run"].
Proof. eexists. split; [apply (at_prompt_by 10); [vm_compute; reflexivity|discriminate]|vm_compute; reflexivity]. Qed.
(** (vars) *)
Lemma vars_shows : forall args s st sc t, scope_at st s = Some sc -> variables_text (s_vars sc) t ->
  exists r, builtin_call $"vars" args s st (Val (Some r)) (wrote ($"variables:" ++ [c_nl] ++ t) st) /\ v_ty r = TUndef.
Proof.
  intros args s st sc t E VT. exists vundef. split; [|reflexivity]. apply (builtin_calls 1 $"vars" BVars); [reflexivity| |discriminate].
  cbn [call_builtin]. unfold b_vars. unfold bind at 1, write_line, write_out at 1. unfold bind at 1, reads at 1.
  assert (G : get_scope s (wrote ($"variables:" ++ [c_nl]) st) = Val sc) by (apply get_at; exact E).
  change (with_out (st_out st ++ ($"variables:" ++ [c_nl])) st) with (wrote ($"variables:" ++ [c_nl]) st). rewrite G.
  unfold bind at 1. rewrite (dump_vars_writes _ _ VT). rewrite wrote_wrote, <- app_assoc. reflexivity.
Qed.
