(** Computed names of definitions, and import. *)
Require Import String Ascii List ZArith Bool Lia.
Require Import PArith FMapPositive.
From Verif Require Import Base CppString Num Token Value State Show ScopeOps Builtins Table Eval LispTop SpecRun SpecVal SpecNum SpecList SpecForm SpecCalc SpecIo SpecText SpecCall SpecMod
  BuiltinProofs RelProofs FrameProofs RunProofs NumProofs TextProofs StrProofs ListProofs FormProofs CallProofs ErrProofs ShowProofs.
Import ListNotations.

(** ** Definitions *)
Lemma named_at : forall s a st w st1, name_given s a st w st1 -> exists k, forall n, (k <= n)%nat ->
  (let! r := eval_arg_if_needed (run n) a s in some_var r) st = (Val w, st1).
Proof.
  intros s a st w st1 [i w' st'|i l st' w' st1' (k & E & N)].
  - exists 0%nat. intros n _. reflexivity.
  - exists k. intros n L. unfold eval_arg_if_needed, bind, lift. cbn [deref obj_is_list].
    apply (ends_at _ _ _ _ _ k n (mono_eval _ _)) in E; [|exact N|exact L]. rewrite E. reflexivity.
Qed.
Lemma def_word : forall st s word tgt, defines_in st s word tgt -> exists b, (word, b) = ($"def", BDef) \/ (word, b) = ($"gdef", BGDef).
Proof. intros st s word tgt [|]; eexists; [left|right]; reflexivity. Qed.
Lemma def_run : forall st s p word tok a0 a1 tgt, form st p word tok [a0; a1] -> standard st s word -> plain a0 -> plain a1 -> defines_in st s word tgt ->
  forall n o st', (forall m, (n <= m)%nat -> exists nm, def_helper (run m) nm tgt [a0; a1] s (noted st s tok) = (o, st')) -> o <> NoFuel -> evals p s st o st'.
Proof.
  intros st s p word tok a0 a1 tgt F S P0 P1 D n o st' H NF.
  assert (EQ : forall m nm nm', def_helper (run m) nm tgt [a0; a1] s = def_helper (run m) nm' tgt [a0; a1] s) by reflexivity.
  destruct D as [X|sc X].
  - apply (special_builtin _ _ _ _ _ _ BDef F S); [reflexivity|reflexivity|repeat constructor; assumption|]. exists n. split; [|exact NF]. cbn [call_builtin]. unfold b_def.
    destruct (H n (le_n n)) as (nm & E). rewrite (EQ n _ nm). exact E.
  - apply (special_builtin _ _ _ _ _ _ BGDef F S); [reflexivity|reflexivity|repeat constructor; assumption|]. exists n. split; [|exact NF]. cbn [call_builtin]. unfold b_gdef, bind at 1, global_of, bind at 1, reads.
    destruct (standard_scope st s _ tok S) as (sc' & X'). rewrite (get_at _ _ _ X'). unfold ret at 1.
    assert (G : s_global sc' = s_global sc). { destruct (like_noted st s tok) as (_ & _ & Q). destruct (Q _ _ _ X X') as (Q1 & _). exact Q1. }
    rewrite G. destruct (H n (le_n n)) as (nm & E). rewrite (EQ n _ nm). exact E.
Qed.
Lemma helper_named : forall n nm tgt a0 a1 s st w st1, (let! r := eval_arg_if_needed (run n) a0 s in some_var r) st = (Val w, st1) ->
  def_helper (run n) nm tgt [a0; a1] s st = (if is_ty TSym w || is_ty TString w then
    let! rv := r_eval (run n) a1 s in let! value := some_var rv in let! p := new_var_ptr value in let! x := reads (var_str w) in scope_set tgt x p ;; some value
  else throw_scope $"Symbol expected" s) st1.
Proof.
  intros n nm tgt a0 a1 s st w st1 E. unfold def_helper. unfold bind at 1, check_args. cbn [length Nat.eqb negb]. unfold ret at 1. unfold bind at 1, arg at 1. cbn [nth_error]. unfold ret at 1.
  unfold bind in E at 1. unfold bind at 1. destruct (eval_arg_if_needed (run n) a0 s st) as [o x]. destruct o as [r|?|?|?|]; try discriminate.
  unfold bind at 1. rewrite E. destruct (is_ty TSym w || is_ty TString w); [|reflexivity]. unfold bind at 1, arg at 1. cbn [nth_error]. unfold ret at 1. reflexivity.
Qed.
Lemma named_kind : forall w name, is_sym w name \/ is_str w name -> is_ty TSym w || is_ty TString w = true /\ forall st, var_str w st = Val name.
Proof.
  intros w name [H|H].
  - split; [destruct H as [T _]; rewrite (is_ty_of _ _ _ T); reflexivity|]. intro st. apply var_str_sym. exact H.
  - split; [destruct H as [T _]; rewrite !(is_ty_of _ _ _ T); reflexivity|]. intro st. apply var_str_str. exact H.
Qed.
Lemma target_exists : forall st s word tgt tok, numbered st -> standard st s word -> defines_in st s word tgt -> scope_exists (noted st s tok) tgt.
Proof.
  intros st s word tgt tok NU S [X|sc X].
  - apply noted_exists, X.
  - apply noted_exists. destruct S as (f & _ & (sc' & gs & i & w & H' & G & _)). assert (sc' = sc) by congruence. subst. eexists; exact G.
Qed.
Lemma named_persists : forall s a st w st1 u, name_given s a st w st1 -> numbered st -> scope_exists st u -> scope_exists st1 u /\ numbered st1.
Proof.
  intros s a st w st1 u [|i l st0 w0 st2 E] N X; [split; assumption|]. split; [eapply scope_persists; eassumption|].
  destruct E as (n & H & _). pose proof (fr_eval _ (frm_run n) (P i (OList l)) s st0 N) as K. rewrite H in K. apply K.
Qed.
Lemma def_named : forall st s p word tok a0 a1 tgt w st1 name v st2, numbered st -> form st p word tok [a0; a1] -> standard st s word -> plain a0 -> plain a1 -> defines_in st s word tgt ->
  name_given s a0 (noted st s tok) w st1 -> is_sym w name \/ is_str w name -> evals a1 s st1 (Val (Some v)) st2 ->
  exists st', evals p s st (Val (Some v)) st' /\ var_becomes st2 st' tgt name v.
Proof.
  intros st s p word tok a0 a1 tgt w st1 name v st2 NU F S P0 P1 D G NM (k2 & E2 & N2). destruct (named_at _ _ _ _ _ G) as (k1 & E1). destruct (named_kind _ _ NM) as [TY VS].
  destruct (named_persists _ _ _ _ _ tgt G (numbered_noted _ _ _ NU) (target_exists _ _ _ _ _ NU S D)) as [X1 NU1].
  assert (XS : scope_exists st2 tgt) by (eapply scope_persists; [exact NU1|exists k2; split; eassumption|exact X1]).
  destruct XS as (sc1 & H1). destruct (set_becomes st2 tgt name v sc1 H1) as [K1 K2]. eexists. split; [|exact K2].
  eapply (def_run _ _ _ _ _ _ _ _ F S P0 P1 D (Nat.max k1 k2)); [|discriminate]. intros m L. exists $"def". rewrite (helper_named _ _ _ _ _ _ _ _ _ (E1 m ltac:(lia))), TY.
  apply (ends_at _ _ _ _ _ k2 m (mono_eval _ _)) in E2; [|exact N2|lia]. unfold bind at 1. rewrite E2. unfold bind at 1, some_var at 1, ret at 1. unfold bind at 1, new_var_ptr, new_ptr.
  unfold bind at 1, reads at 1. rewrite VS. unfold bind. rewrite K1. reflexivity.
Qed.
Lemma def_value_fails : forall st s p word tok a0 a1 tgt w st1 name o o' st2, form st p word tok [a0; a1] -> standard st s word -> plain a0 -> plain a1 -> defines_in st s word tgt ->
  name_given s a0 (noted st s tok) w st1 -> is_sym w name \/ is_str w name -> evals a1 s st1 o st2 -> fails o o' -> evals p s st o' st2.
Proof.
  intros st s p word tok a0 a1 tgt w st1 name o o' st2 F S P0 P1 D G NM (k2 & E2 & N2) FA. destruct (named_at _ _ _ _ _ G) as (k1 & E1). destruct (named_kind _ _ NM) as [TY VS].
  eapply (def_run _ _ _ _ _ _ _ _ F S P0 P1 D (Nat.max k1 k2)).
  - intros m L. exists $"def". rewrite (helper_named _ _ _ _ _ _ _ _ _ (E1 m ltac:(lia))), TY.
    apply (ends_at _ _ _ _ _ k2 m (mono_eval _ _)) in E2; [|exact N2|lia]. unfold bind at 1. rewrite E2. destruct o as [[r|]|?|?|?|]; cbn in FA; try contradiction; subst; reflexivity.
  - destruct o as [[r|]|?|?|?|]; cbn in FA; try contradiction; subst; try discriminate; congruence.
Qed.
Lemma def_name_fails : forall st s p word tok i l a1 tgt o o' st1, form st p word tok [P i (OList l); a1] -> standard st s word -> plain a1 -> defines_in st s word tgt ->
  evals (P i (OList l)) s (noted st s tok) o st1 -> fails o o' -> evals p s st o' st1.
Proof.
  intros st s p word tok i l a1 tgt o o' st1 F S P1 D (k2 & E2 & N2) FA.
  eapply (def_run _ _ _ _ _ (P i (OList l)) _ _ F S Logic.I P1 D k2).
  - intros m L. exists $"def". unfold def_helper. unfold bind at 1, check_args. cbn [length Nat.eqb negb]. unfold ret at 1. unfold bind at 1, arg at 1. cbn [nth_error]. unfold ret at 1.
    unfold bind at 1, eval_arg_if_needed, bind at 1, lift. cbn [deref obj_is_list].
    apply (ends_at _ _ _ _ _ k2 m (mono_eval _ _)) in E2; [|exact N2|lia]. rewrite E2. destruct o as [[r|]|?|?|?|]; cbn in FA; try contradiction; subst; reflexivity.
  - destruct o as [[r|]|?|?|?|]; cbn in FA; try contradiction; subst; try discriminate; congruence.
Qed.
Lemma def_no_name : forall st s p word tok a0 a1 tgt w st1, form st p word tok [a0; a1] -> standard st s word -> plain a0 -> plain a1 -> defines_in st s word tgt ->
  name_given s a0 (noted st s tok) w st1 -> v_ty w <> TSym -> v_ty w <> TString -> printable st1 s ->
  exists info, evals p s st (Throw (ELisp $"Symbol expected" info)) st1.
Proof.
  intros st s p word tok a0 a1 tgt w st1 F S P0 P1 D G T1 T2 PR. destruct (named_at _ _ _ _ _ G) as (k1 & E1).
  destruct (throw_scope_ok result $"Symbol expected" st1 s PR) as (info & T). exists info.
  eapply (def_run _ _ _ _ _ _ _ _ F S P0 P1 D k1); [|discriminate]. intros m L. exists $"def". rewrite (helper_named _ _ _ _ _ _ _ _ _ (E1 m L)).
  assert (TY : is_ty TSym w || is_ty TString w = false) by (unfold is_ty; destruct (v_ty w); try reflexivity; congruence). rewrite TY. exact T.
Qed.

(** ** Import *)
Lemma slashes_same : forall t, ~ In (ascii_of_nat 92) t -> slashes t = t.
Proof.
  unfold slashes. induction t as [|c t IH]; intro H; [reflexivity|]. cbn [map]. rewrite IH by (intro I; apply H; right; exact I).
  destruct (ascii_dec c (ascii_of_nat 92)) as [->|_]; [destruct H; left; reflexivity|reflexivity].
Qed.
Lemma slashes_app : forall a b, slashes (a ++ b) = slashes a ++ slashes b. Proof. intros. apply map_app. Qed.
Lemma slashes_is : forall t, Replace t [ascii_of_nat 92] $"/" = slashes t.
Proof.
  intro t. pose proof (TextProofs.Replace_spec t [ascii_of_nat 92] $"/" ltac:(discriminate) ltac:(cbn; intuition discriminate) ltac:(cbn; intuition discriminate)) as H.
  induction H as [text N|a b b' FA _ IH].
  - rewrite slashes_same; [reflexivity|]. intro I. apply N. apply in_split in I. destruct I as (x & y & ->). exists (length x), x, y. split; reflexivity.
  - rewrite !slashes_app, <- IH. rewrite (slashes_same a); [reflexivity|]. intro I. apply in_split in I. destruct I as (x & y & ->). destruct FA as (_ & FA).
    assert (K : SpecText.occurs_at [ascii_of_nat 92] ((x ++ ascii_of_nat 92 :: y) ++ [ascii_of_nat 92] ++ b) (length x)) by (exists x, (y ++ [ascii_of_nat 92] ++ b); split; [rewrite <- app_assoc|]; reflexivity).
    apply FA in K. rewrite app_length in K. cbn [length] in K. lia.
Qed.
Lemma ends_with_spec : forall n t, EndsWith n t = true <-> exists a, n = a ++ t.
Proof.
  intros n t. unfold EndsWith. destruct (Nat.ltb_spec (length n) (length t)) as [L|L].
  - split; [discriminate|]. intros (a & ->). rewrite app_length in L. lia.
  - split.
    + intro H. apply TextProofs.prefixb_spec in H. destruct H as (r & H). exists (rev r). rewrite <- (rev_involutive n), H, rev_app_distr, rev_involutive. reflexivity.
    + intros (a & ->). rewrite rev_app_distr. apply TextProofs.prefixb_spec. exists (rev a). reflexivity.
Qed.
Lemma extended_is : forall n m, extended n m -> add_ext n = m.
Proof.
  intros n m H. unfold add_ext. inversion H as [a E1 E2|n' N E1 E2]; subst.
  - assert (E : EndsWith (a ++ $".fuel") $".fuel" = true) by (apply ends_with_spec; exists a; reflexivity). rewrite E. reflexivity.
  - destruct (EndsWith n $".fuel") eqn:E; [|reflexivity]. apply ends_with_spec in E. destruct E as (a & E). destruct (N a E).
Qed.
Lemma tried_is : forall e org ns, tried e org ns -> import_candidates e org = ns.
Proof. intros e org ns H. unfold import_candidates. destruct H as [a b c E A B C|p a b c d E A B C D]; rewrite E, (extended_is _ _ A), (extended_is _ _ B), (extended_is _ _ C); [reflexivity|rewrite (extended_is _ _ D); reflexivity]. Qed.
Lemma extended_total : forall n, exists m, extended n m.
Proof.
  intro n. destruct (EndsWith n $".fuel") eqn:E.
  - apply ends_with_spec in E. destruct E as (a & ->). eexists. apply ex_there.
  - eexists. apply ex_added. intros a ->. assert (K : EndsWith (a ++ $".fuel") $".fuel" = true) by (apply ends_with_spec; exists a; reflexivity). congruence.
Qed.
Lemma tried_total : forall e org, exists ns, tried e org ns.
Proof.
  intros e org. destruct (extended_total (e_libpath e ++ $"/" ++ org)) as (a & A). destruct (extended_total ($"./Library/" ++ org)) as (b & B). destruct (extended_total ($"./lib/fuel/" ++ org)) as (c & C).
  destruct (e_fuelpath e) as [p|] eqn:E; [destruct (extended_total (p ++ $"/" ++ org)) as (d & D); eexists; eapply tr_files_path|eexists; eapply tr_files]; eassumption.
Qed.
Lemma content_lookup : forall st n t, content st n t -> file_lookup (cstr n) st = t.
Proof. intros st n t (m & N & F). rewrite (IoProofs.system_cstr _ _ N), IoProofs.file_lookup_at. exact F. Qed.
Lemma first_picked : forall st ns n t, first_file st ns n t -> forall d, pick_file ns d st = Val (n, true) /\ read_file n st = Val t.
Proof.
  intros st ns n t H. induction H as [n t ns C|n ns m t C _ IH]; intro d; cbn [pick_file]; unfold file_exists; rewrite (content_lookup _ _ _ C); cbn [obind].
  - split; [reflexivity|]. unfold read_file. rewrite (content_lookup _ _ _ C). reflexivity.
  - apply IH.
Qed.
Lemma none_picked : forall st ns, Forall (fun n => content st n None) ns -> forall d, pick_file ns d st = Val (last ns d, false).
Proof.
  intros st ns H. induction H as [|n ns C H IH]; intro d; [reflexivity|]. cbn [pick_file]. unfold file_exists. rewrite (content_lookup _ _ _ C). cbn [obind]. rewrite IH.
  destruct ns as [|x ns]; [reflexivity|]. f_equal. f_equal. change (last (x :: ns) n = last (x :: ns) d). generalize x. clear. induction ns as [|y ns IH]; intro x; [reflexivity|]. apply (IH y).
Qed.
Lemma warn_format : forall a b, fine_arg a -> fine_arg b -> Format $"WARNING: Library {0} not found! Tried path {1}" [a; b] = Val ($"WARNING: Library " ++ a ++ $" not found! Tried path " ++ b).
Proof.
  intros a b A B.
  change ($"WARNING: Library {0} not found! Tried path {1}" : str) with (template [PLit $"WARNING: Library "; PHole "0"%char; PLit $" not found! Tried path "; PHole "1"%char]).
  rewrite Format_full.
  - cbn [fill_all digits5 list_ascii_of_string fill_hole fill_wide Ascii.eqb Bool.eqb template flat_map piece_text]. rewrite !app_nil_r. reflexivity.
  - pieces.
  - repeat (apply Forall_cons || apply Forall_nil); assumption.
  - cbn [length skipn digits5 list_ascii_of_string]. intros k [<-|[<-|[<-|[]]]] [H|(wt & w & H)]; cbn in H; intuition discriminate.
Qed.
Lemma named_value : forall v t st, is_sym v t \/ is_str v t -> string_value v st = Val t.
Proof. intros v t st [(T & V)|(T & V)]; unfold string_value; rewrite V; reflexivity. Qed.
Lemma import_calls : forall n i v t s st o st', is_sym v t \/ is_str v t -> import_one (run n) (P i (OVar v)) s (Some vundef) st = (o, st') -> o <> NoFuel ->
  builtin_call $"import" [P i (OVar v)] s st o st'.
Proof.
  intros n i v t s st o st' T H NF. apply (builtin_calls n _ BImport); [vm_compute; reflexivity| |exact NF]. cbn [call_builtin]. unfold b_import. cbn [import_loop]. unfold bind. rewrite H.
  destruct o; reflexivity.
Qed.
Lemma import_head : forall R i v t s res st ns, is_sym v t \/ is_str v t -> tried (st_env st) (slashes t) ns ->
  import_one R (P i (OVar v)) s res st = (let! f := reads (pick_file ns []) in
    let '(name, found) := f in
    let! code := if found then reads (read_file name) else write_fmt $"WARNING: Library {0} not found! Tried path {1}" [slashes t; name] ;; ret [] in
    match code with
    | [] => ret res
    | _ =>
      let! g := global_of s in
      let! i := new_scope ($"import " ++ name) g name in
      push_next s i ;;
      let! r := r_script R code i name in
      let! mp := scope_index g k_modules in
      let! ms := lift (scope_ref mp) in
      let! o := obj_copy (OScope i) in
      let! np := new_ptr o in
      scope_set ms name np ;;
      pop_next s ;;
      ret r
    end) st.
Proof.
  intros R i v t s res st ns T TR. unfold import_one. unfold bind at 1, lift at 1. cbn [vref vref_obj]. unfold bind at 1, reads at 1. rewrite (named_value _ _ _ T).
  unfold bind at 1, reads at 1. rewrite slashes_is, (tried_is _ _ _ TR). reflexivity.
Qed.
Lemma import_missing : forall i v t s st ns, is_sym v t \/ is_str v t -> tried (st_env st) (slashes t) ns -> Forall (fun n => content st n None) ns -> fine_text (slashes t) -> fine_text (last ns []) ->
  exists r, builtin_call $"import" [P i (OVar v)] s st (Val (Some r)) (written_out st ($"WARNING: Library " ++ slashes t ++ $" not found! Tried path " ++ last ns [] ++ [c_nl])) /\ v_ty r = TUndef.
Proof.
  intros i v t s st ns T TR N F1 F2. exists vundef. split; [|reflexivity]. apply (import_calls 0 _ _ t); [exact T| |discriminate]. rewrite (import_head _ _ _ _ _ _ _ _ T TR).
  unfold bind at 1, reads at 1. rewrite (none_picked _ _ N). unfold bind at 1, bind at 1. rewrite (write_fmt_is _ _ _ _ (warn_format _ _ (fine_is _ F1) (fine_is _ F2))).
  unfold ret. unfold SpecDebug.wrote, written_out. rewrite <- !app_assoc. reflexivity.
Qed.
Lemma import_empty : forall i v t s st ns file, is_sym v t \/ is_str v t -> tried (st_env st) (slashes t) ns -> first_file st ns file [] ->
  exists r, builtin_call $"import" [P i (OVar v)] s st (Val (Some r)) st /\ v_ty r = TUndef.
Proof.
  intros i v t s st ns file T TR N. exists vundef. split; [|reflexivity]. apply (import_calls 0 _ _ t); [exact T| |discriminate]. rewrite (import_head _ _ _ _ _ _ _ _ T TR).
  destruct (first_picked _ _ _ _ N []) as [E1 E2]. unfold bind at 1, reads at 1. rewrite E1. unfold bind at 1, reads at 1. rewrite E2. reflexivity.
Qed.
Lemma scope_becomes_at : forall s sc st u, scope_at (scope_becomes s sc st) u = if Pos.eqb u s then Some sc else scope_at st u.
Proof. intros. unfold scope_becomes. apply find_scope_add. Qed.
Lemma mod_scope_becomes : forall s sc f st, scope_at st s = Some sc -> mod_scope s f st = (Val tt, scope_becomes s (f sc) st).
Proof. intros s sc f st H. unfold mod_scope, bind, reads. rewrite (get_at _ _ _ H). reflexivity. Qed.
Definition opened (st : state) (s : sid) (sc : scope) (file : str) : state :=
  let i := st_nsid st in
  scope_becomes i (import_scope file (s_global sc) s) (scope_becomes s (set_next (Some i) sc) (with_nsid (Pos.succ i) (scope_becomes i (fresh_scope ($"import " ++ file) (s_global sc) [] file) st))).
Lemma opened_ok : forall st s sc file, numbered st -> scope_at st s = Some sc -> import_opened st (opened st s sc file) s (st_nsid st) file.
Proof.
  intros st s sc file NU H. assert (NI : scope_at st (st_nsid st) = None).
  { destruct (scope_at st (st_nsid st)) as [x|] eqn:E; [|reflexivity]. exfalso. apply (NU (st_nsid st)) in E. lia. }
  assert (NE : s <> st_nsid st) by congruence. exists sc. split; [exact H|]. split; [exact NI|]. unfold opened. split; [rewrite scope_becomes_at, Pos.eqb_refl; reflexivity|]. split.
  { rewrite !scope_becomes_at. destruct (Pos.eqb_spec s (st_nsid st)); [congruence|]. rewrite Pos.eqb_refl. reflexivity. }
  split; [|repeat split].
  intros u U1 U2. rewrite scope_becomes_at. destruct (Pos.eqb_spec u (st_nsid st)); [congruence|]. rewrite scope_becomes_at. destruct (Pos.eqb_spec u s); [congruence|].
  change (scope_at (scope_becomes (st_nsid st) (fresh_scope ($"import " ++ file) (s_global sc) [] file) st) u = scope_at st u). rewrite scope_becomes_at.
  destruct (Pos.eqb_spec u (st_nsid st)); [congruence|]. reflexivity.
Qed.
Lemma new_scope_run : forall st file g gs, scope_at st g = Some gs -> file <> [] ->
  new_scope ($"import " ++ file) g file st = (Val (st_nsid st), with_nsid (Pos.succ (st_nsid st)) (scope_becomes (st_nsid st) (fresh_scope ($"import " ++ file) g [] file) st)).
Proof.
  intros st file g gs G NE. unfold new_scope, bind, reads. rewrite (get_at _ _ _ G). unfold alloc_scope, fresh_scope. destruct file; [congruence|]. unfold scope_becomes. destruct st; reflexivity.
Qed.
Lemma push_run : forall st s sc c file, scope_at st s = Some sc -> scope_at st c = Some (fresh_scope ($"import " ++ file) (s_global sc) [] file) -> s <> c -> file <> [] ->
  push_next s c st = (Val tt, scope_becomes c (import_scope file (s_global sc) s) (scope_becomes s (set_next (Some c) sc) st)).
Proof.
  intros st s sc c file H C NE NF. unfold push_next, bind at 1. rewrite (mod_scope_becomes _ _ _ _ H).
  assert (C' : scope_at (scope_becomes s (set_next (Some c) sc) st) c = Some (fresh_scope ($"import " ++ file) (s_global sc) [] file)).
  { rewrite scope_becomes_at. destruct (Pos.eqb_spec c s); [congruence|exact C]. }
  rewrite (mod_scope_becomes _ _ _ _ C'). destruct file; [congruence|reflexivity].
Qed.
Lemma import_runs_to : forall n i v t s st ns file text sc, is_sym v t \/ is_str v t -> tried (st_env st) (slashes t) ns -> first_file st ns file text -> text <> [] -> file <> [] ->
  numbered st -> scope_at st s = Some sc -> scope_exists st (s_global sc) ->
  import_one (run n) (P i (OVar v)) s (Some vundef) st = (let! r := r_script (run n) text (st_nsid st) file in
      let! mp := scope_index (s_global sc) k_modules in
      let! ms := lift (scope_ref mp) in
      let! o := obj_copy (OScope (st_nsid st)) in
      let! np := new_ptr o in
      scope_set ms file np ;;
      pop_next s ;;
      ret r) (opened st s sc file).
Proof.
  intros n i v t s st ns file text sc T TR FF NT NF NU H (gs & G). rewrite (import_head _ _ _ _ _ _ _ _ T TR). destruct (first_picked _ _ _ _ FF []) as [E1 E2].
  unfold bind at 1, reads at 1. rewrite E1. unfold bind at 1, reads at 1. rewrite E2. destruct text as [|c0 text]; [congruence|].
  unfold bind at 1, global_of, bind at 1, reads at 1. rewrite (get_at _ _ _ H). unfold ret at 1. unfold bind at 1. rewrite (new_scope_run _ _ _ _ G NF).
  assert (NE : s <> st_nsid st). { intros E. apply (NU s) in H. lia. }
  unfold bind at 1. erewrite push_run; [reflexivity| | |exact NE|exact NF].
  - change (scope_at (scope_becomes (st_nsid st) (fresh_scope ($"import " ++ file) (s_global sc) [] file) st) s = Some sc). rewrite scope_becomes_at. destruct (Pos.eqb_spec s (st_nsid st)); [congruence|exact H].
  - change (scope_at (scope_becomes (st_nsid st) (fresh_scope ($"import " ++ file) (s_global sc) [] file) st) (st_nsid st) = Some (fresh_scope ($"import " ++ file) (s_global sc) [] file)).
    rewrite scope_becomes_at, Pos.eqb_refl. reflexivity.
Qed.
Definition closing (s i : sid) (g : sid) (file : str) (r : result) : M result :=
  let! mp := scope_index g k_modules in
  let! ms := lift (scope_ref mp) in
  let! o := obj_copy (OScope i) in
  let! np := new_ptr o in
  scope_set ms file np ;;
  pop_next s ;;
  ret r.
Lemma set_prev_prev : forall a b sc, set_prev a (set_prev b sc) = set_prev a sc. Proof. intros a b []. reflexivity. Qed.
Lemma closing_ok : forall st s i sc ms file r, numbered st -> scope_at st s = Some sc -> s_next sc = Some i -> scope_exists st i -> s <> i -> scope_exists st (s_global sc) ->
  modules_in st (s_global sc) ms -> ms <> s -> ms <> i ->
  exists st', closing s i (s_global sc) file r st = (Val r, st') /\ import_closed st st' s i file.
Proof.
  intros st s i sc ms file r NU H NX (isc & I) NE (gs & G) (gi & V & (msc & M)) N1 N2.
  set (c := st_nsid st). assert (NC : forall u x, scope_at st u = Some x -> u <> c). { intros u x E. apply (NU u) in E. unfold c. lia. }
  pose proof (NC _ _ H) as CS. pose proof (NC _ _ I) as CI. pose proof (NC _ _ M) as CM.
  set (st1 := with_nid (Pos.succ (st_nid st)) (with_nsid (Pos.succ c) (scope_becomes c isc st))).
  set (np := P (st_nid st) (OScope c)). set (msc1 := set_vars (vars_set file np (s_vars msc)) msc).
  assert (A1 : forall u, scope_at st1 u = if Pos.eqb u c then Some isc else scope_at st u) by (intro u; apply scope_becomes_at).
  set (st2 := scope_becomes ms msc1 st1). set (st3 := scope_becomes i (set_prev None isc) st2). set (st4 := scope_becomes s (set_next None sc) st3).
  assert (A2 : forall u, scope_at st2 u = if Pos.eqb u ms then Some msc1 else scope_at st1 u) by (intro u; apply scope_becomes_at).
  assert (A3 : forall u, scope_at st3 u = if Pos.eqb u i then Some (set_prev None isc) else scope_at st2 u) by (intro u; apply scope_becomes_at).
  assert (A4 : forall u, scope_at st4 u = if Pos.eqb u s then Some (set_next None sc) else scope_at st3 u) by (intro u; apply scope_becomes_at).
  assert (nb : forall a b : positive, a <> b -> Pos.eqb a b = false) by (intros a b X; apply Pos.eqb_neq; exact X).
  exists st4. split.
  - unfold closing. unfold bind at 1, scope_index, bind at 1, reads at 1. rewrite (get_at _ _ _ G).
    assert (VF : vars_find k_modules (s_vars gs) = Some (P gi (OScope ms))).
    { pose proof (find_var st (s_global sc) k_modules ltac:(exists gs; exact G)) as Q. unfold scope_find in Q. rewrite (get_at _ _ _ G) in Q. cbn [obind] in Q. injection Q as Q. rewrite Q. exact V. }
    rewrite VF. unfold ret at 1. unfold bind at 1, lift at 1. cbn [scope_ref]. unfold bind at 1. cbn [obj_copy]. unfold bind at 1, reads at 1. rewrite (get_at _ _ _ I).
    unfold bind at 1, alloc_scope. unfold ret at 1. unfold bind at 1, new_ptr.
    match goal with |- context[bind (scope_set ms file ?q) _ ?x] => change q with np; change x with st1 end.
    unfold bind at 1, scope_set. rewrite (mod_scope_becomes ms msc) by (rewrite A1, nb by exact CM; exact M). fold msc1. fold st2.
    unfold bind at 1, pop_next, bind at 1, reads at 1. rewrite (get_at st2 s sc) by (rewrite A2, (nb s ms), A1, (nb s c) by congruence; exact H). rewrite NX.
    unfold bind at 1. rewrite (mod_scope_becomes i isc) by (rewrite A2, (nb i ms), A1, (nb i c) by congruence; exact I). fold st3.
    rewrite (mod_scope_becomes s sc) by (rewrite A3, (nb s i), A2, (nb s ms), A1, (nb s c) by congruence; exact H). fold st4. reflexivity.
  - assert (VM : forall n, var_at st4 ms n = lookup n (s_vars msc1)). { intro n. unfold var_at. rewrite A4, (nb ms s), A3, (nb ms i), A2, Pos.eqb_refl by congruence. reflexivity. }
    exists sc, isc, (s_global sc), gi, ms, msc, c, (st_nid st). split; [exact H|]. split; [reflexivity|]. split; [exact I|]. split; [exact V|]. split; [exact M|].
    split. { destruct (scope_at st c) eqn:E; [destruct (NC _ _ E eq_refl)|reflexivity]. }
    split. { rewrite A4, (nb c s), A3, (nb c i), A2, (nb c ms), A1, Pos.eqb_refl by congruence. reflexivity. }
    split. { rewrite VM. unfold msc1. cbn [s_vars set_vars]. rewrite lookup_set. destruct (list_eq_dec ascii_dec file file); [reflexivity|congruence]. }
    split. { intros n N. rewrite VM. unfold msc1. cbn [s_vars set_vars]. rewrite lookup_set. destruct (list_eq_dec ascii_dec n file); [congruence|]. unfold var_at. rewrite M. reflexivity. }
    split. { rewrite A4, Pos.eqb_refl. reflexivity. }
    split. { rewrite A4, (nb i s), A3, Pos.eqb_refl by congruence. reflexivity. }
    split. { intros u U1 U2 U3 U4. rewrite A4, (nb u s), A3, (nb u i), A2, (nb u ms), A1, (nb u c) by congruence. reflexivity. }
    split. { exists msc1. split; [rewrite A4, (nb ms s), A3, (nb ms i), A2, Pos.eqb_refl by congruence; reflexivity|]. unfold msc1. destruct msc; repeat split. }
    repeat split.
Qed.
Lemma link_same : forall a b, same_link a b -> s_global b = s_global a /\ s_next b = s_next a /\ exists v, b = set_vars v a.
Proof. intros a b (v & ->). destruct a. repeat split. eexists. reflexivity. Qed.
Lemma import_ok : forall i v t s st ns file text sc, is_sym v t \/ is_str v t -> tried (st_env st) (slashes t) ns -> first_file st ns file text -> text <> [] -> file <> [] ->
  numbered st -> scope_at st s = Some sc -> scope_exists st (s_global sc) ->
  exists m st1, import_opened st st1 s m file /\
    (forall r st2 ms, runs_in m text file st1 (Val r) st2 -> modules_in st2 (s_global sc) ms -> ms <> s -> ms <> m ->
      exists st3, builtin_call $"import" [P i (OVar v)] s st (Val r) st3 /\ import_closed st2 st3 s m file) /\
    (forall o st2, runs_in m text file st1 o st2 -> (forall r, o <> Val r) -> builtin_call $"import" [P i (OVar v)] s st o st2).
Proof.
  intros i v t s st ns file text sc T TR FF NT NF NU H X. exists (st_nsid st), (opened st s sc file). split; [apply opened_ok; assumption|].
  pose proof (opened_ok st s sc file NU H) as (sc' & H' & NI & OI & OS & OT & _). assert (sc' = sc) by congruence. subst sc'. split.
  - intros r st2 ms (n & E & N) (gi & V & XM) N1 N2. assert (E' : r_script (run (S n)) text (st_nsid st) file (opened st s sc file) = (Val r, st2)) by exact E.
    assert (NU1 : numbered (opened st s sc file)).
    { intros u x E0. change (st_nsid (opened st s sc file)) with (Pos.succ (st_nsid st)). destruct (Pos.eq_dec u (st_nsid st)) as [->|U1]; [lia|]. destruct (Pos.eq_dec u s) as [->|U2]; [apply (NU s) in H; lia|].
      rewrite OT in E0 by assumption. apply (NU u) in E0. lia. }
    pose proof (fr_script _ (frm_run (S n)) text (st_nsid st) file _ NU1) as (D1 & K & _). rewrite E' in D1, K. cbn [snd] in D1, K.
    assert (NE : s <> st_nsid st) by congruence.
    assert (KS : exists sc2, scope_at st2 s = Some sc2 /\ s_global sc2 = s_global sc /\ s_next sc2 = Some (st_nsid st)).
    { destruct (K s _ OS) as (sc2 & E2 & Q). unfold K_of in Q. destruct (Pos.eqb_spec s (st_nsid st)); [congruence|]. apply link_same in Q. destruct Q as (Q1 & Q2 & _).
      exists sc2. split; [exact E2|]. destruct sc; split; assumption. }
    destruct KS as (sc2 & H2 & G2 & X2).
    assert (XI : scope_exists st2 (st_nsid st)) by (destruct (K _ _ OI) as (x & E2 & _); exists x; exact E2).
    assert (XG : scope_exists st2 (s_global sc)).
    { destruct X as (gs & X). destruct (Pos.eq_dec (s_global sc) (st_nsid st)) as [->|U1]; [exact XI|]. destruct (Pos.eq_dec (s_global sc) s) as [->|U2]; [exists sc2; exact H2|].
      rewrite <- OT in X by assumption. destruct (K _ _ X) as (x & E2 & _). exists x. exact E2. }
    destruct (closing_ok st2 s (st_nsid st) sc2 ms file r D1 H2 X2 XI NE ltac:(rewrite G2; exact XG) ltac:(rewrite G2; exists gi; split; assumption) N1 N2) as (st3 & C & CL).
    exists st3. split; [|exact CL]. apply (import_calls (S n) _ _ t); [exact T| |discriminate]. rewrite (import_runs_to _ _ _ _ _ _ _ _ _ _ T TR FF NT NF NU H X).
    unfold bind at 1. rewrite E'. rewrite G2 in C. exact C.
  - intros o st2 (n & E & N) F. assert (E' : r_script (run (S n)) text (st_nsid st) file (opened st s sc file) = (o, st2)) by exact E.
    apply (import_calls (S n) _ _ t); [exact T| |exact N]. rewrite (import_runs_to _ _ _ _ _ _ _ _ _ _ T TR FF NT NF NU H X). unfold bind at 1. rewrite E'.
    destruct o as [r|?|?|?|]; try reflexivity. exfalso. exact (F r eq_refl).
Qed.
(** Several modules: one after the other. *)
Lemma same_bind : forall A r1 r2 (m : M A) (k1 k2 : A -> M result), (forall a st, (exists st', k1 a st = (Val r1, st') /\ k2 a st = (Val r2, st')) \/ k1 a st = k2 a st) ->
  forall st, (exists st', bind m k1 st = (Val r1, st') /\ bind m k2 st = (Val r2, st')) \/ bind m k1 st = bind m k2 st.
Proof. intros A r1 r2 m k1 k2 H st. unfold bind. destruct (m st) as [[a|?|?|?|] st']; [apply H| | | |]; right; reflexivity. Qed.
Lemma import_default : forall R ps s r1 r2 st, snd (import_loop R ps s r1 st) = snd (import_loop R ps s r2 st) /\
  (fst (import_loop R ps s r1 st) = fst (import_loop R ps s r2 st) \/ fst (import_loop R ps s r1 st) = Val r1 /\ fst (import_loop R ps s r2 st) = Val r2).
Proof.
  intros R ps s r1 r2. revert r1 r2. induction ps as [|p ps IH]; intros r1 r2 st; [split; [reflexivity|right; split; reflexivity]|]. cbn [import_loop].
  assert (ONE : (exists st', import_one R p s r1 st = (Val r1, st') /\ import_one R p s r2 st = (Val r2, st')) \/ import_one R p s r1 st = import_one R p s r2 st).
  { apply (same_bind _ r1 r2). intros v sa. apply same_bind. intros t sb. cbv zeta. apply same_bind. intros e sc. apply same_bind. intros [nm b] sd. apply same_bind. intros [|c0 code] se.
    - left. exists se. split; reflexivity.
    - right. reflexivity. }
  unfold bind. destruct ONE as [(st' & E1 & E2)|E].
  - rewrite E1, E2. apply IH.
  - rewrite E. destruct (import_one R p s r2 st) as [[r|?|?|?|] st']; split; auto.
Qed.
Lemma import_several : forall p q ps s st r st1 o st2, builtin_call $"import" [p] s st (Val r) st1 -> builtin_call $"import" (q :: ps) s st1 o st2 ->
  exists o', builtin_call $"import" (p :: q :: ps) s st o' st2 /\ (o' = o \/ exists w, o = Val (Some w) /\ v_ty w = TUndef /\ o' = Val r).
Proof.
  intros p q ps s st r st1 o st2 B1 B2. destruct (builtin_code_call $"import" BImport _ _ _ _ _ ltac:(vm_compute; reflexivity) B1) as (n1 & C1 & N1).
  destruct (builtin_code_call $"import" BImport _ _ _ _ _ ltac:(vm_compute; reflexivity) B2) as (n2 & C2 & N2). set (n := Nat.max n1 n2).
  apply (ends_at _ _ _ _ _ n1 n (mono_builtin _ _ _)) in C1; [|exact N1|unfold n; lia]. apply (ends_at _ _ _ _ _ n2 n (mono_builtin _ _ _)) in C2; [|exact N2|unfold n; lia].
  cbn [call_builtin] in C1, C2. unfold b_import in C1, C2. destruct (import_default (run n) (q :: ps) s r (Some vundef) st1) as (D1 & D2). rewrite C2 in D1, D2. cbn [fst snd] in D1, D2.
  destruct (import_loop (run n) (q :: ps) s r st1) as [o' st2'] eqn:E. cbn [fst snd] in D1, D2. subst st2'. exists o'.
  assert (OK : o' <> NoFuel). { destruct D2 as [-> | [-> _]]; [exact N2|discriminate]. }
  split.
  - apply (builtin_calls n _ BImport); [vm_compute; reflexivity| |exact OK]. cbn [call_builtin]. unfold b_import.
    change (import_loop (run n) (p :: q :: ps) s (Some vundef)) with (bind (import_one (run n) p s (Some vundef)) (fun r => import_loop (run n) (q :: ps) s r)).
    cbn [import_loop] in C1. unfold bind in C1 at 1. unfold bind at 1. destruct (import_one (run n) p s (Some vundef) st) as [[r'|?|?|?|] st1']; try discriminate.
    unfold ret in C1. injection C1 as -> ->. exact E.
  - destruct D2 as [-> | [-> D2]]; [left; reflexivity|right]. exists vundef. split; [exact D2|]. split; reflexivity.
Qed.
Lemma import_stops : forall p ps s st o st1, builtin_call $"import" [p] s st o st1 -> (forall r, o <> Val r) -> builtin_call $"import" (p :: ps) s st o st1.
Proof.
  intros p ps s st o st1 B F. destruct (builtin_code_call $"import" BImport _ _ _ _ _ ltac:(vm_compute; reflexivity) B) as (n & C & N).
  apply (builtin_calls n _ BImport); [vm_compute; reflexivity| |exact N]. cbn [call_builtin] in *. unfold b_import in *. cbn [import_loop] in *. unfold bind in *.
  destruct (import_one (run n) p s (Some vundef) st) as [[r'|?|?|?|] st1']; try exact C. unfold ret in C. injection C as <- <-. destruct (F r' eq_refl).
Qed.
Lemma import_copies : exists w st', runs false false $"(import ""m"") (inc) (inc) (+ counter 0)" [] mod_st (Val (Some w)) st' /\ is_int w 0.
Proof. eexists. eexists. split; [apply (runs_by 60); [vm_compute; reflexivity|discriminate]|split; reflexivity]. Qed.
Lemma import_here : exists w st', runs false false $"(import ""m"")" [] (init_state [] [($"m.fuel", $"(def a 1)")] (Env (fun _ => true) None $"/lib")) (Val (Some w)) st' /\ v_ty w = TUndef /\
  st_out st' = $"WARNING: Library m not found! Tried path ./lib/fuel/m.fuel" ++ [c_nl].
Proof. eexists. eexists. split; [apply (runs_by 60); [vm_compute; reflexivity|discriminate]|split; vm_compute; reflexivity]. Qed.
