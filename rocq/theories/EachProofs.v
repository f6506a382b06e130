(** Programs that use the loop function of the standard library. *)
Require Import String Ascii List ZArith Bool Lia.
Require Import PArith FMapPositive.
From Verif Require Import Base CppString Num Token Value State Show ScopeOps Builtins Table Eval LispTop SpecLex SpecParse SpecRun SpecVal SpecNum SpecList SpecForm SpecCalc SpecMacro SpecRead SpecIo SpecLang SpecLib SpecLoop
  LexProofs ParseProofs RunProofs BuiltinProofs FormProofs ErrProofs ReadProofs LangProofs ProgProofs SampleProofs LibProofs LoopProofs.
Import ListNotations.

Lemma fresh_apply : forall inp files e, exists i v fn, var_at (init_state inp files e) main_sid $"apply" = Some (P i (OVar v)) /\ is_fn v fn /\ builtin_fn $"apply" = Some fn.
Proof.
  intros inp files e.
  assert (Q : match builtin_fn $"apply", lookup $"apply" (fst main_vars) with Some f, Some (P _ (OVar v)) => match v_ty v with TFun => true | _ => false end | _, _ => false end = true) by (vm_compute; reflexivity).
  assert (E : var_at (init_state inp files e) main_sid $"apply" = lookup $"apply" (fst main_vars)).
  { assert (S : exists sc, scope_at (init_state inp files e) main_sid = Some sc /\ s_vars sc = fst main_vars) by (eexists; split; [unfold scope_at; vm_compute; reflexivity|vm_compute; reflexivity]).
    destruct S as (sc & S & SV). unfold var_at. rewrite S, SV. reflexivity. }
  rewrite E. unfold builtin_fn in *. rewrite lookup_find in *. clear E. revert Q. generalize (lookup $"apply" (fst main_vars)). clear. intros x Q. destruct x as [[|i [|?|?|?|?|?|?|?|?|?|? ? ?|v]]|]; try discriminate. destruct (v_val v) as [[|?|?|?|?|?|?|f|?|?|? ? ?|?]|] eqn:V; try discriminate.
  exists i, v, f. split; [reflexivity|]. split; [|reflexivity]. split; [destruct (v_ty v); congruence|exact V].
Qed.
Lemma table_none : forall defs x, ~ In x (map fst defs) -> table defs x = None.
Proof. induction defs as [|[f d] defs IH]; intros x N; [reflexivity|]. cbn [table]. destruct (list_eq_dec ascii_dec x f) as [-> |NE]; [exfalso; apply N; left; reflexivity|]. apply IH. intro I. apply N. right. exact I. Qed.
Lemma apart_none : forall defs x, keeps_apart defs -> In x ($"apply" :: foreach_names) -> with_foreach defs x = None.
Proof.
  intros defs x (_ & H) I. apply table_none. cbn [map fst foreach_def]. intros [E|J].
  - subst x. cbn [In foreach_names] in I. intuition discriminate.
  - apply in_map_iff in J. destruct J as (d & <- & J). rewrite Forall_forall in H. exact (H d J I).
Qed.
Lemma free_tidy : forall defs x, keeps_apart defs -> In x foreach_names -> tidy (with_foreach defs) x.
Proof.
  intros defs x K I. pose proof (apart_none defs x K (or_intror I)) as N. revert I N. generalize (with_foreach defs). clear. intros F I N. cbn [In foreach_names] in I.
  destruct I as [<-|[<-|[<-|[<-|[]]]]]; (split; [discriminate|split; [vm_compute; intuition discriminate|split; [vm_compute; intuition discriminate|exact N]]]).
Qed.
Lemma each_loaded : forall inp files e modname defs h ce l s ks, keeps_apart defs -> program_text (foreach_def :: defs) [Exp (Call $"foreach" [ce; Name h])] l -> src_ok s -> src_kinds s ks -> writes_all l ks ->
  exists st3 p, callable (with_foreach defs) st3 main_sid main_sid /\ starting (with_foreach defs) st3 /\ exp_at st3 p (Call $"foreach" [ce; Name h]) /\ st_out st3 = [] /\
    forall w st', evals p main_sid st3 (Val w) st' -> leaving st' main_sid false -> runs false false (src_text s) modname (init_state inp files e) (Val w) st'.
Proof.
  intros inp files e modname defs h ce l s ks KA PT OK KS WR.
  destruct (program_loaded inp files e modname (foreach_def :: defs) _ l s ks (proj1 KA) PT OK KS WR) as (r1 & st3 & q2 & SG & SA & O3 & _ & _ & _ & VA & RUN).
  change (table (foreach_def :: defs)) with (with_foreach defs) in *.
  inversion SA as [|i l' ps b ss' S1 S2]; subst. inversion S2; subst. assert (EA : exp_at st3 (P i (OList l')) (Call $"foreach" [ce; Name h])) by (inversion S1; subst; assumption).
  exists st3, (P i (OList l')). split; [|split; [exact SG|split; [exact EA|split; [exact O3|]]]].
  - destruct SG as (W & NM & R & L). pose proof R as ((sc & H & G & _) & _). split; [exact W|]. split; [exists sc; auto|]. split; [|split; [apply apart_none; [exact KA|left; reflexivity]|apply Forall_forall; intros x I; apply free_tidy; assumption]].
    split; [apply no_macro_any; [exists sc; exact H|exact NM]|]. split; [left; reflexivity|]. rewrite VA; [apply fresh_apply|].
    cbn [map fst foreach_def]. intros [E|J]; [discriminate E|]. destruct KA as (_ & KA). apply in_map_iff in J. destruct J as (d & E & J). rewrite Forall_forall in KA. apply (KA d J). left. symmetry. exact E.
  - intros w st' EV LV. apply RUN. eapply sq_next; [exact EV|exact LV|constructor].
Qed.

(** ** What a program prints *)
Lemma program_lines : forall inp files e modname defs ce v o0 ts l s ks, keeps_apart defs -> program_text (foreach_def :: defs) [Exp (Call $"foreach" [ce; Name $"println"])] l -> src_ok s -> src_kinds s ks -> writes_all l ks ->
  yields (with_foreach defs) empty_store ce v o0 -> iterable v -> short (elements v) -> Forall2 (fun u t => text_of u = Some t) (elements v) ts ->
  exists r st', runs false false (src_text s) modname (init_state inp files e) (Val r) st' /\ st_out st' = o0 ++ concat (map line ts) /\ loop_value (length (elements v)) r.
Proof.
  intros inp files e modname defs ce v o0 ts l s ks KA PT OK KS WR Y IT SH TS.
  destruct (each_loaded inp files e modname defs $"println" ce l s ks KA PT OK KS WR) as (st3 & p & CA & (W & NM & R & L) & EA & O3 & RUN).
  pose proof W as (_ & _ & (gs & G & _) & _ & WO & _). destruct (WO $"println") as (j & fv & f & VP & IF & BF); [vm_compute; tauto|].
  destruct (foreach_args _ empty_store main_sid st3 main_sid p ce $"println" v o0 j fv f CA R EA eq_refl Y) as (i & w & st1 & fn & q & CA1 & IS & VI & C1 & S1 & O1 & K); [apply se_own; [exists gs; exact G|exact VP]|exact IF|].
  destruct (foreach_println _ main_sid main_sid st1 fn q i w v j fv f ts CA1 IS IF BF VI IT SH TS) as (r & st' & CL & C2 & _ & O2 & LV).
  exists r, st'. split; [apply RUN; [apply K; exact CL|]|split; [rewrite O2, O1, O3; reflexivity|exact LV]].
  eapply leaving_calm; [exact C2|]. eapply leaving_calm; [exact C1|exact L].
Qed.
Lemma program_calls : forall inp files e modname defs ce h x b v o0 os l s ks, keeps_apart defs -> program_text (foreach_def :: defs) [Exp (Call $"foreach" [ce; Name h])] l -> src_ok s -> src_kinds s ks -> writes_all l ks ->
  yields (with_foreach defs) empty_store ce v o0 -> iterable v -> short (elements v) -> with_foreach defs h = Some ([x], b) -> tidy (with_foreach defs) x ->
  Forall2 (fun u o => exists m' z r, does (with_foreach defs) (parameters_of [x] [u]) b m' z r o /\ z <> Nothing) (elements v) os ->
  exists r st', runs false false (src_text s) modname (init_state inp files e) (Val r) st' /\ st_out st' = o0 ++ concat os /\ loop_value (length (elements v)) r.
Proof.
  intros inp files e modname defs ce h x b v o0 os l s ks KA PT OK KS WR Y IT SH FH TX DS.
  destruct (each_loaded inp files e modname defs h ce l s ks KA PT OK KS WR) as (st3 & p & CA & (W & NM & R & L) & EA & O3 & RUN).
  pose proof W as (_ & _ & (gs & G & _) & _ & _ & DE). destruct (DE _ _ _ FH) as (j & fv & f & name & modn & fp & body & more & ds & VP & IF & _).
  destruct (foreach_args _ empty_store main_sid st3 main_sid p ce h v o0 j fv f CA R EA eq_refl Y) as (i & w & st1 & fn & q & CA1 & IS & VI & C1 & S1 & O1 & K); [apply se_own; [exists gs; exact G|exact VP]|exact IF|].
  assert (VP1 : var_at st1 main_sid h = Some (P j (OVar fv))). { destruct C1 as (_ & _ & KV & _). rewrite KV; [exact VP|exists gs; exact G|intros []]. }
  destruct (foreach_calls _ main_sid main_sid st1 fn q i w v j h fv f x b os CA1 IS FH TX VP1 IF VI IT SH DS) as (r & st' & CL & C2 & _ & O2 & LV).
  exists r, st'. split; [apply RUN; [apply K; exact CL|]|split; [rewrite O2, O1, O3; reflexivity|exact LV]].
  eapply leaving_calm; [exact C2|]. eapply leaving_calm; [exact C1|exact L].
Qed.

(** ** The text of a program *)
Definition foreach_data : SpecMacro.code :=
  CList [sy $"defn"; sy $"foreach"; CList [sy $"container"; sy $"fcn"];
    CList [sy $"do"; CList [sy $"def"; sy $"__i"; nu 0]; CList [sy $"def"; sy $"max"; CList [sy $"len"; sy $"container"]];
      CList [sy $"while"; CList [sy $"<"; sy $"__i"; sy $"max"];
        CList [sy $"do"; CList [sy $"apply"; sy $"fcn"; CList [sy $"list"; CList [sy $"nth"; sy $"__i"; sy $"container"]]]; CList [sy $"setf"; sy $"__i"; CList [sy $"+"; sy $"__i"; nu 1]]]]]].
Lemma foreach_written : written foreach_data = foreach_text. Proof. vm_compute. reflexivity. Qed.
Lemma foreach_readable : readable foreach_data. Proof. unfold foreach_data. tree. Qed.
Lemma foreach_apart : keeps_apart [].
Proof.
  split; [|constructor]. split; [repeat constructor; intros []|]. constructor; [|constructor]. split; [free_n|]. repeat (apply Forall_cons; [free_n|]). apply Forall_nil.
Qed.
Lemma foreach_is_text : fun_text foreach_def (data_expr foreach_data).
Proof.
  eexists; split; [reflexivity|]. cbn [fst snd foreach_def]. unfold foreach_body, foreach_loop.
  repeat first [apply xt_num; unfold fits; lia | apply xt_name | apply xs_nil | apply xs_cons | apply xt_prim; [vm_compute; intuition discriminate|] | apply xt_call; [vm_compute; intuition discriminate|] | apply ms_nil | apply ms_cons | apply mt_def | apply mt_set | apply mt_block | apply mt_while | apply mt_exp].
Qed.
Lemma each_printed : forall inp files e modname c x v ts, argument c x v -> iterable v -> short (elements v) -> Forall2 (fun u t => text_of u = Some t) (elements v) ts ->
  exists r st', runs false false (foreach_text ++ $" (foreach " ++ written c ++ $" println)") modname (init_state inp files e) (Val r) st' /\ st_out st' = concat (map line ts) /\ loop_value (length ts) r.
Proof.
  intros inp files e modname c x v ts (RC & TX & Y) IT SH TS. set (cs := [foreach_data; CList [sy $"foreach"; c; sy $"println"]]).
  destruct (sources_write cs) as (ks & O & K & W). { unfold cs. constructor; [apply foreach_readable|]. constructor; [|constructor]. apply li_ok. constructor; [sym|]. constructor; [exact RC|]. constructor; [sym|constructor]. }
  destruct (program_lines inp files e modname [] x v [] ts (map data_expr cs) (data_sources cs) ks foreach_apart) as (r & st' & R & OT & LV); try assumption.
  - exists [data_expr foreach_data], [data_expr (CList [sy $"foreach"; c; sy $"println"])]. split; [reflexivity|]. split; [constructor; [apply foreach_is_text|constructor]|].
    cbn [data_expr map]. constructor; [|constructor]. apply mt_exp. apply (xt_call $"foreach"); [vm_compute; intuition discriminate|]. constructor; [exact TX|]. constructor; [apply xt_name|constructor].
  - apply Y.
  - exists r, st'. rewrite (all2_length _ _ _ _ _ TS) in LV. split; [|split; assumption].
    replace (src_text (data_sources cs)) with (foreach_text ++ $" (foreach " ++ written c ++ $" println)") in R; [exact R|].
    unfold cs. change (data_sources [?a; ?b]) with (data_source a [c_space] ++ data_source b []). rewrite ReadProofs.src_text_app, !source_text, foreach_written, app_nil_r, list_written. cbn [map].
    unfold arguments. cbn [map concat]. rewrite !app_nil_r, <- !app_assoc. reflexivity.
Qed.
Lemma numbers_printed : forall inp files e modname zs, Forall fits zs -> short zs ->
  exists r st', runs false false (foreach_text ++ $" (foreach (list" ++ arguments (map z_to_string zs) ++ $") println)") modname (init_state inp files e) (Val r) st' /\
    st_out st' = concat (map line (map z_to_string zs)) /\ loop_value (length zs) r.
Proof.
  intros inp files e modname zs FI SH. destruct (each_printed inp files e modname _ _ _ (map z_to_string zs) (nums_argument zs FI)) as (r & st' & R & OT & LV).
  - exact Logic.I.
  - cbn [elements]. unfold short in *. rewrite map_length. exact SH.
  - cbn [elements]. clear. induction zs; constructor; auto.
  - rewrite nums_written, <- !app_assoc in R. rewrite map_length in LV. exists r, st'. split; [exact R|]. split; assumption.
Qed.
Lemma characters_printed : forall inp files e modname t, bare_text t -> short t ->
  exists r st', runs false false (foreach_text ++ $" (foreach " ++ in_quotes t ++ $" println)") modname (init_state inp files e) (Val r) st' /\
    st_out st' = concat (map line (characters t)) /\ loop_value (length t) r.
Proof.
  intros inp files e modname t BT SH. destruct (each_printed inp files e modname _ _ _ (characters t) (text_argument t BT)) as (r & st' & R & OT & LV).
  - exact Logic.I.
  - cbn [elements]. unfold short in *. rewrite map_length. exact SH.
  - cbn [elements]. unfold characters. clear. induction t; constructor; auto.
  - unfold characters in LV. rewrite map_length in LV. exists r, st'. split; [exact R|]. split; assumption.
Qed.

(** ** Cases *)
Lemma shrinking_list : exists st', runs false false (foreach_text ++ $" (def l (list 1 2 3)) (foreach l (lambda (x) (do (println x) (pop l))))") [] (init_state [] [] (Env (fun _ => true) None [])) (Undef UBIndex) st' /\
  st_out st' = line $"1" ++ line $"3".
Proof. eexists. split; [apply (runs_by 60); [vm_compute; reflexivity|discriminate]|reflexivity]. Qed.
Lemma counter_value : exists w st', runs false false (foreach_text ++ $" (foreach (list 10 20) (lambda (x) (* x 2)))") [] (init_state [] [] (Env (fun _ => true) None [])) (Val (Some w)) st' /\ is_int w 2.
Proof. eexists _, _. split; [apply (runs_by 60); [vm_compute; reflexivity|discriminate]|split; reflexivity]. Qed.
Definition two_numbers : exp := Prim $"list" [Const (NumV 3); Const (NumV 4)].
Definition two_data : SpecMacro.code := CList [sy $"list"; nu 3; nu 4].
Lemma two_argument : argument two_data two_numbers (ListV [NumV 3; NumV 4]).
Proof. apply (nums_argument [3; 4]%Z). repeat constructor; unfold fits; lia. Qed.
Definition square_def : fundef := ($"square", ([$"x"], Print (Prim $"*" [Name $"x"; Name $"x"]))).
Definition square_data : SpecMacro.code := CList [sy $"defn"; sy $"square"; CList [sy $"x"]; CList [sy $"println"; CList [sy $"*"; sy $"x"; sy $"x"]]].
Lemma square_apart : keeps_apart [square_def].
Proof.
  split; [|constructor; [vm_compute; intuition discriminate|constructor]]. split; [repeat apply NoDup_cons; [cbn; intuition discriminate|intros []|apply NoDup_nil]|].
  repeat (apply Forall_cons; [split; [free_n|repeat (apply Forall_cons; [free_n|]); apply Forall_nil]|]). apply Forall_nil.
Qed.
Lemma square_case : exists l s ks, src_text s = foreach_text ++ $" (defn square (x) (println (* x x))) (foreach (list 3 4) square)" /\ keeps_apart [square_def] /\
  program_text [foreach_def; square_def] [Exp (Call $"foreach" [two_numbers; Name $"square"])] l /\ src_ok s /\ src_kinds s ks /\ writes_all l ks /\
  yields (with_foreach [square_def]) empty_store two_numbers (ListV [NumV 3; NumV 4]) [] /\ with_foreach [square_def] $"square" = Some ([$"x"], Print (Prim $"*" [Name $"x"; Name $"x"])) /\ tidy (with_foreach [square_def]) $"x" /\
  Forall2 (fun u o => exists m' z r, does (with_foreach [square_def]) (parameters_of [$"x"] [u]) (Print (Prim $"*" [Name $"x"; Name $"x"])) m' z r o /\ z <> Nothing) [NumV 3; NumV 4] [line $"9"; line $"16"].
Proof.
  set (cs := [foreach_data; square_data; CList [sy $"foreach"; two_data; sy $"square"]]).
  destruct (sources_write cs) as (ks & O & K & W). { unfold cs. constructor; [apply foreach_readable|]. constructor; [unfold square_data; tree|]. constructor; [unfold two_data; tree|constructor]. }
  exists (map data_expr cs), (data_sources cs), ks. split; [vm_compute; reflexivity|]. split; [apply square_apart|]. split.
  { exists [data_expr foreach_data; data_expr square_data], [data_expr (CList [sy $"foreach"; two_data; sy $"square"])]. split; [reflexivity|]. split.
    - constructor; [apply foreach_is_text|]. constructor; [|constructor]. eexists. split; [reflexivity|]. cbn [fst snd square_def]. apply mt_print. apply xt_prim; [vm_compute; intuition discriminate|]. repeat constructor.
    - cbn [data_expr map]. constructor; [|constructor]. apply mt_exp. apply (xt_call $"foreach"); [vm_compute; intuition discriminate|]. constructor; [apply two_argument|]. constructor; [apply xt_name|constructor]. }
  split; [exact O|]. split; [exact K|]. split; [exact W|]. split; [apply two_argument|]. split; [reflexivity|].
  split; [split; [discriminate|]; split; [vm_compute; intuition discriminate|]; split; [vm_compute; intuition discriminate|reflexivity]|].
  assert (G : forall z t, fits (z * z) -> z_to_string (z * z) = t -> exists m' y r, does (with_foreach [square_def]) (parameters_of [$"x"] [NumV z]) (Print (Prim $"*" [Name $"x"; Name $"x"])) m' y r (line t) /\ y <> Nothing).
  { intros z t FI <-. eexists _, (TextV (z_to_string (z * z))), _. split; [|discriminate]. change (line (z_to_string (z * z))) with ([] ++ line (z_to_string (z * z))). eapply do_print with (v := NumV (z * z)); [|reflexivity].
    apply yi_prim with (vs := [NumV z; NumV z]). 
    - change (@nil ascii) with (@nil ascii ++ @nil ascii ++ []). repeat apply ya_cons; try apply ya_nil; apply yi_name; reflexivity.
    - apply (pr_op Mul). constructor. exact FI. }
  repeat constructor; apply G; try (unfold fits; lia); reflexivity.
Qed.
Lemma rule_case : exists F g s st fn q w fv f (I : sid -> nat -> state -> Prop), callable F st s g /\ is_foreach st fn q /\ is_fn fv f /\ counts st w 2 /\ fits 2 /\
  (forall c, scope_at st c = None -> carries F g c q w f 2 (I c) /\ I c 0%nat st) /\ (forall c st', I c 2%nat st' -> st_out st' = line $"3" ++ line $"4").
Proof.
  set (cs := [foreach_data; CList [sy $"foreach"; two_data; sy $"println"]]).
  destruct (sources_write cs) as (ks & O & K & W). { unfold cs. constructor; [apply foreach_readable|]. constructor; [unfold two_data; tree|constructor]. }
  destruct (each_loaded [] [] (Env (fun _ => true) None []) [] [] $"println" two_numbers (map data_expr cs) (data_sources cs) ks foreach_apart) as (st3 & p & CA & (WO & NM & R & L) & EA & O3 & _); try assumption.
  { exists [data_expr foreach_data], [data_expr (CList [sy $"foreach"; two_data; sy $"println"])]. split; [reflexivity|]. split; [constructor; [apply foreach_is_text|constructor]|].
    cbn [data_expr map]. constructor; [|constructor]. apply mt_exp. apply (xt_call $"foreach"); [vm_compute; intuition discriminate|]. constructor; [apply two_argument|]. constructor; [apply xt_name|constructor]. }
  pose proof WO as (_ & _ & (gs & G & _) & _ & WW & _). destruct (WW $"println") as (j & fv & f & VP & IF & BF); [vm_compute; tauto|].
  destruct (foreach_args _ empty_store main_sid st3 main_sid p two_numbers $"println" (ListV [NumV 3; NumV 4]) [] j fv f CA R EA eq_refl) as (i & w & st1 & fn & q & CA1 & IS & VI & C1 & S1 & O1 & _); [apply two_argument|apply se_own; [exists gs; exact G|exact VP]|exact IF|].
  exists (with_foreach []), main_sid, main_sid, st1, fn, q, w, fv, f, (fun _ k st' => calm st1 st' /\ st_out st' = st_out st1 ++ concat (firstn k (map line [$"3"; $"4"]))).
  split; [exact CA1|]. split; [exact IS|]. split; [exact IF|]. split; [apply (val_counts st1 w (ListV [NumV 3; NumV 4]) VI Logic.I)|]. split; [unfold fits; lia|]. split.
  - assert (TS : Forall2 (fun u t => text_of u = Some t) (elements (ListV [NumV 3; NumV 4])) [$"3"; $"4"]) by (cbn [elements]; repeat apply Forall2_cons; try apply Forall2_nil; reflexivity).
    exact (prints_carries (with_foreach []) main_sid st1 q w (ListV [NumV 3; NumV 4]) f (map line [$"3"; $"4"]) VI Logic.I eq_refl (println_so _ main_sid st1 f _ [$"3"; $"4"] BF TS)).
  - intros c st' (_ & E). rewrite E, O1, O3. reflexivity.
Qed.
