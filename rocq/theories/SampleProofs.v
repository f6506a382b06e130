(** Programs, run from their texts. *)
Require Import String Ascii List ZArith Bool Lia.
Require Import PArith FMapPositive.
From Verif Require Import Base CppString Num Token Value State Show ScopeOps Builtins Table Eval LispTop SpecLex SpecParse SpecRun SpecVal SpecNum SpecList SpecForm SpecCalc SpecMacro SpecRead SpecIo SpecLang
  LexProofs ParseProofs RunProofs ErrProofs ReadProofs LangProofs ProgProofs.
Import ListNotations.

(** ** Programs *)
Lemma trees_run : forall inp files e modname defs ss t1 t2 m' v r o, readable t1 -> readable t2 -> well_named defs -> program_text defs ss [data_expr t1; data_expr t2] -> ss <> [] ->
  do_all (table defs) empty_store ss NoV m' v r o ->
  exists w st', runs false false (written t1 ++ $" " ++ written t2) modname (init_state inp files e) (Val w) st' /\ res_is st' w v /\ st_out st' = o.
Proof.
  intros inp files e modname defs ss t1 t2 m' v r o R1 R2 WN PT NE DO. destruct (source_writes t1 R1) as (k1 & W1 & K1). destruct (source_writes t2 R2) as (k2 & W2 & K2).
  destruct (program_runs inp files e modname defs ss [data_expr t1; data_expr t2] (data_source t1 [c_space] ++ data_source t2 []) (k1 ++ k2 ++ []) m' v r o) as (w & st' & R & V & O & _); try assumption.
  - apply source_ok; [exact R1|reflexivity|intro X; discriminate|]. rewrite <- (app_nil_r (data_source t2 [])). apply source_ok; [exact R2|reflexivity|intros _; exact Logic.I|exact Logic.I].
  - rewrite app_nil_r. apply src_kinds_app_intro; [apply K1|apply K2].
  - apply ws_cons; [exact W1|]. apply ws_cons; [exact W2|constructor].
  - exists w, st'. split; [|split; assumption]. rewrite src_text_app, !source_text, app_nil_r, <- app_assoc in R. exact R.
Qed.
Notation Bin k a b := (Prim (op_name k) [a; b]).
Lemma yi_two : forall F m n a b x y v o1 o2, yields F m a x o1 -> yields F m b y o2 -> prim n [x; y] v -> yields F m (Prim n [a; b]) v (o1 ++ o2).
Proof. intros F m n a b x y v o1 o2 A B P. rewrite <- (app_nil_r o2). eapply yi_prim; [|exact P]. apply ya_cons; [exact A|]. apply ya_cons; [exact B|constructor]. Qed.
Lemma yi_one : forall F m n a x v o1, yields F m a x o1 -> prim n [x] v -> yields F m (Prim n [a]) v o1.
Proof. intros F m n a x v o1 A P. rewrite <- (app_nil_r o1). eapply yi_prim; [|exact P]. apply ya_cons; [exact A|constructor]. Qed.
Lemma yi_bin : forall F m k a b x y v o1 o2, yields F m a (NumV x) o1 -> yields F m b (NumV y) o2 -> computes k x y v -> yields F m (Bin k a b) v (o1 ++ o2).
Proof. intros F m k a b x y v o1 o2 A B P. eapply yi_two; [exact A|exact B|apply pr_op, P]. Qed.
Definition sy (t : str) : SpecMacro.code := CAtom (mkv TSym (OString t)).
Lemma res_text : forall st w t, res_is st w (TextV t) -> exists u, w = Some u /\ is_str u t.
Proof. intros st [u|] t H; [|discriminate]. exists u. split; [reflexivity|]. eapply val_text; exact H. Qed.
Definition nu (z : Z) : SpecMacro.code := CAtom (vint z).
Lemma sy_ok : forall t, symbol_text t -> readable (sy t).
Proof. intros t H. right. right. left. exists t. split; [split; reflexivity|exact H]. Qed.
Lemma nu_ok : forall z, fits z -> readable (nu z).
Proof. intros z H. left. exists z. split; [split; reflexivity|exact H]. Qed.
Lemma li_ok : forall ts, Forall readable ts -> readable (CList ts).
Proof. intros ts H. apply readable_list, H. Qed.
Ltac sym := apply sy_ok; split; [split; [discriminate|reflexivity]|first [left; reflexivity | right; left; reflexivity | right; right; split; [reflexivity|vm_compute; intuition discriminate]]].
Ltac tree := repeat first [sym | apply nu_ok; first [assumption | unfold fits; lia] | apply li_ok; repeat (apply Forall_cons); try apply Forall_nil].
Ltac free_n := split; [discriminate|split; vm_compute; intuition discriminate].
(** *** Fibonacci numbers *)
Definition fib_code : SpecMacro.code := CList [sy $"defn"; sy $"fib"; CList [sy $"n"]; CList [sy $"if"; CList [sy $"<"; sy $"n"; nu 2]; sy $"n";
  CList [sy $"+"; CList [sy $"fib"; CList [sy $"-"; sy $"n"; nu 1]]; CList [sy $"fib"; CList [sy $"-"; sy $"n"; nu 2]]]]].
Definition fib_body : exp := Cond (Bin Less (Name $"n") (Const (NumV 2))) (Name $"n")
  (Bin Add (Call $"fib" [Bin Sub (Name $"n") (Const (NumV 1))]) (Call $"fib" [Bin Sub (Name $"n") (Const (NumV 2))])).
Definition fib_defs : list fundef := [($"fib", ([$"n"], Exp fib_body))].
Lemma fib_step : forall n, fib (S (S n)) = (fib (S n) + fib n)%Z. Proof. reflexivity. Qed.
Lemma fib_pos : forall n, (0 <= fib n /\ 0 <= fib (S n))%Z.
Proof. induction n as [|n (A & B)]; [split; vm_compute; discriminate|]. split; [exact B|]. rewrite fib_step. lia. Qed.
Lemma fib_mono : forall n, (fib n <= fib (S n))%Z.
Proof. intros [|n]; [vm_compute; discriminate|]. rewrite fib_step. pose proof (fib_pos n). lia. Qed.
Fixpoint fibs (n : nat) : Z * Z := match n with O => (0%Z, 1%Z) | S m => let (a, b) := fibs m in (b, (a + b)%Z) end.
Lemma fibs_ok : forall n, fibs n = (fib n, fib (S n)).
Proof. induction n as [|n IH]; [reflexivity|]. cbn [fibs]. rewrite IH, fib_step. f_equal. lia. Qed.
Lemma fib_le : forall k n, (n <= k)%nat -> (fib n <= fst (fibs k))%Z.
Proof.
  intros k n H. rewrite fibs_ok. cbn [fst]. induction H as [|k H IH]; [apply Z.le_refl|]. pose proof (fib_mono k). lia.
Qed.
Lemma fib_fits : forall n, (n <= 46)%nat -> fits (fib n).
Proof.
  intros n H. pose proof (fib_le 46 n H) as M. assert (E' : fst (fibs 46) = 1836311903%Z) by (vm_compute; reflexivity). rewrite E' in M. pose proof (fib_pos n) as (Q & _). unfold fits. lia.
Qed.
Opaque fib.
Lemma fib_tidy : Forall (tidy (table fib_defs)) [$"n"].
Proof. constructor; [|constructor]. split; [discriminate|]. split; [vm_compute; intuition discriminate|]. split; [vm_compute; intuition discriminate|reflexivity]. Qed.
Lemma fib_body_yields : forall n, (n <= 46)%nat -> yields (table fib_defs) (parameters_of [$"n"] [NumV (Z.of_nat n)]) fib_body (NumV (fib n)) [].
Proof.
  intro n. induction n as [n IH] using (well_founded_induction Wf_nat.lt_wf). intro L.
  set (m := parameters_of [$"n"] [NumV (Z.of_nat n)]). assert (N : yields (table fib_defs) m (Name $"n") (NumV (Z.of_nat n)) []) by (constructor; reflexivity).
  assert (C : yields (table fib_defs) m (Bin Less (Name $"n") (Const (NumV 2))) (BoolV (Z.ltb (Z.of_nat n) 2)) ([] ++ [])) by (eapply yi_bin; [exact N|constructor|constructor]).
  change (@nil ascii) with (@nil ascii ++ []). eapply yi_cond; [exact C|]. destruct (Z.ltb_spec (Z.of_nat n) 2) as [H|H].
  - destruct n as [|[|n]]; [exact N|exact N|lia].
  - destruct n as [|[|n]]; try lia. rewrite fib_step.
    assert (CA : forall k j, (k < S (S n))%nat -> (Z.of_nat (S (S n)) - j = Z.of_nat k)%Z -> yields (table fib_defs) m (Call $"fib" [Bin Sub (Name $"n") (Const (NumV j))]) (NumV (fib k)) []).
    { intros k j LT EQ. change (@nil ascii) with ((([] ++ []) ++ []) ++ @nil ascii). eapply yi_call with (vs := [NumV (Z.of_nat k)]) (r := false); [reflexivity| |reflexivity|repeat constructor; intros []|apply fib_tidy|constructor; apply IH; lia|discriminate].
      apply ya_cons; [|constructor]. rewrite <- EQ. eapply yi_bin; [exact N|constructor|]. constructor. unfold fits. lia. }
    change (@nil ascii) with (@nil ascii ++ []). eapply yi_bin; [apply (CA (S n) 1%Z); lia|apply (CA n 2%Z); lia|]. constructor. rewrite <- fib_step. apply fib_fits, L.
Qed.
Theorem fib_program : forall inp files e modname n, (n <= 46)%nat ->
  exists w st', runs false false ($"(defn fib (n) (if (< n 2) n (+ (fib (- n 1)) (fib (- n 2))))) (println (fib " ++ z_to_string (Z.of_nat n) ++ $"))") modname (init_state inp files e) (Val (Some w)) st' /\
    is_str w (z_to_string (fib n)) /\ st_out st' = z_to_string (fib n) ++ [c_nl].
Proof.
  intros inp files e modname n H. set (z := Z.of_nat n). assert (FZ : fits z) by (unfold fits, z; lia).
  destruct (trees_run inp files e modname fib_defs [Print (Call $"fib" [Const (NumV z)])] fib_code (CList [sy $"println"; CList [sy $"fib"; nu z]]) empty_store (TextV (z_to_string (fib n))) false
    (((([] ++ []) ++ []) ++ z_to_string (fib n) ++ [c_nl]) ++ [])) as (w & st' & R & V & O).
  - unfold fib_code. tree.
  - tree.
  - split; [repeat constructor; intros []|]. constructor; [|constructor]. split; [free_n|]. constructor; [free_n|constructor].
  - exists [data_expr fib_code], [data_expr (CList [sy $"println"; CList [sy $"fib"; nu z]])]. split; [reflexivity|]. split.
    + constructor; [|constructor]. eexists. split; [reflexivity|]. apply mt_exp. unfold fib_body. repeat (constructor; try (unfold fits; lia); try (vm_compute; intuition discriminate)).
    + constructor; [|constructor]. constructor. constructor; [vm_compute; intuition discriminate|]. repeat constructor; exact (proj1 FZ) || exact (proj2 FZ).
  - discriminate.
  - eapply da_next; [|constructor]. eapply do_print with (v := NumV (fib n)); [|reflexivity]. eapply yi_call with (r := false) (vs := [NumV z]); [reflexivity|apply ya_cons; constructor|reflexivity|repeat constructor; intros []|apply fib_tidy| |discriminate].
    constructor. apply fib_body_yields, H.
  - destruct (res_text _ _ _ V) as (u & -> & IS). exists u, st'. split; [|split; [exact IS|rewrite app_nil_r in O; exact O]]. 
    replace ($"(defn fib (n) (if (< n 2) n (+ (fib (- n 1)) (fib (- n 2))))) (println (fib " ++ z_to_string z ++ $"))") with (written fib_code ++ $" " ++ written (CList [sy $"println"; CList [sy $"fib"; nu z]])); [exact R|].
    cbn. rewrite <- ?app_assoc. cbn. rewrite <- ?app_assoc. reflexivity.
Qed.

(** *** Greatest common divisors *)
Definition gcd_code : SpecMacro.code := CList [sy $"defn"; sy $"gcd"; CList [sy $"a"; sy $"b"]; CList [sy $"do";
  CList [sy $"while"; CList [sy $">"; sy $"b"; nu 0]; CList [sy $"do"; CList [sy $"def"; sy $"t"; CList [sy $"%"; sy $"a"; sy $"b"]]; CList [sy $"setf"; sy $"a"; sy $"b"]; CList [sy $"setf"; sy $"b"; sy $"t"]]];
  CList [sy $"return"; sy $"a"]]].
Definition gcd_test : exp := Bin More (Name $"b") (Const (NumV 0)).
Definition gcd_round : stm := Block [Def $"t" (Bin Rem (Name $"a") (Name $"b")); Set_ $"a" (Name $"b"); Set_ $"b" (Name $"t")].
Definition gcd_defs : list fundef := [($"gcd", ([$"a"; $"b"], Block [While gcd_test gcd_round; Return (Name $"a")]))].
Lemma gcd_tidy : forall x, In x [$"a"; $"b"; $"t"] -> tidy (table gcd_defs) x.
Proof. intros x I. assert (Q : free_name x /\ table gcd_defs x = None). { destruct I as [<-|[<-|[<-|[]]]]; (split; [free_n|reflexivity]). } destruct Q as ((A & B & C) & D). split; [exact A|]. split; [exact B|]. split; [exact C|exact D]. Qed.
Lemma gcd_rounds : forall k a b m v0, (Z.to_nat b <= k)%nat -> (0 <= a)%Z -> fits a -> (0 <= b)%Z -> fits b -> m $"a" = Some (NumV a) -> m $"b" = Some (NumV b) ->
  exists m' v, loops (table gcd_defs) m gcd_test gcd_round v0 m' v false [] /\ m' $"a" = Some (NumV (Z.gcd a b)).
Proof.
  induction k as [|k IH]; intros a b m v0 L A FA B FB MA MB.
  all: assert (T : forall x, (Z.ltb 0 b = x) -> yields (table gcd_defs) m gcd_test (BoolV x) []) by (intros x <-; change (@nil ascii) with (@nil ascii ++ []); eapply yi_bin; [constructor; exact MB|constructor|constructor]).
  - assert (b = 0)%Z as -> by lia. exists m, v0. split; [constructor; apply T; reflexivity|]. rewrite Z.gcd_0_r, Z.abs_eq by exact A. exact MA.
  - destruct (Z.eq_dec b 0) as [-> |NZ]. { exists m, v0. split; [constructor; apply T; reflexivity|]. rewrite Z.gcd_0_r, Z.abs_eq by exact A. exact MA. }
    pose proof (Z.mod_pos_bound a b ltac:(lia)) as MP. pose proof (Z.div_mod a b NZ) as DM.
    assert (QB : (0 <= a / b <= a)%Z) by (split; [apply Z.div_pos; lia|apply Z.div_le_upper_bound; nia]).
    set (m1 := update m $"t" (NumV (a mod b))). set (m2 := update m1 $"a" (NumV b)). set (m3 := update m2 $"b" (NumV (a mod b))).
    assert (R : does (table gcd_defs) m gcd_round m3 (NumV (a mod b)) false []).
    { constructor. change (@nil ascii) with (([] ++ []) ++ ([] ++ ([] ++ @nil ascii))). eapply da_next.
      - apply do_def; [apply gcd_tidy; cbn; tauto|]. eapply yi_bin; [constructor; exact MA|constructor; exact MB|]. apply (cm_rem a b (a / b) (a mod b)); [|unfold fits in *; lia]. 
        unfold divides_to. repeat split; try lia.
      - eapply da_next; [apply do_set; [apply gcd_tidy; cbn; tauto|change (m $"a" <> None); rewrite MA; discriminate|constructor; exact MB]|].
        eapply da_next; [apply do_set; [apply gcd_tidy; cbn; tauto|change (m $"b" <> None); rewrite MB; discriminate|constructor; reflexivity]|constructor]. }
    destruct (IH b (a mod b)%Z m3 (NumV (a mod b))) as (m' & v & LO & RA); try lia; [exact FB|unfold fits in *; lia|reflexivity|reflexivity|].
    exists m', v. split; [|rewrite RA; do 2 f_equal; rewrite Z.gcd_comm, Z.gcd_mod by exact NZ; apply Z.gcd_comm].
    change (@nil ascii) with ([] ++ ([] ++ @nil ascii)). eapply lo_next; [apply T; apply Z.ltb_lt; lia|exact R|exact LO].
Qed.
Theorem gcd_program : forall inp files e modname a b, (0 <= a)%Z -> fits a -> (0 <= b)%Z -> fits b ->
  exists w st', runs false false ($"(defn gcd (a b) (do (while (> b 0) (do (def t (% a b)) (setf a b) (setf b t))) (return a))) (println (gcd " ++ z_to_string a ++ $" " ++ z_to_string b ++ $"))") modname
    (init_state inp files e) (Val (Some w)) st' /\
    is_str w (z_to_string (Z.gcd a b)) /\ st_out st' = z_to_string (Z.gcd a b) ++ [c_nl].
Proof.
  intros inp files e modname a b A FA B FB. destruct (gcd_rounds (Z.to_nat b) a b (parameters_of [$"a"; $"b"] [NumV a; NumV b]) NoV (Nat.le_refl _) A FA B FB eq_refl eq_refl) as (m' & v & LO & RA).
  destruct (trees_run inp files e modname gcd_defs [Print (Call $"gcd" [Const (NumV a); Const (NumV b)])] gcd_code (CList [sy $"println"; CList [sy $"gcd"; nu a; nu b]]) empty_store (TextV (z_to_string (Z.gcd a b))) false
    (((([] ++ ([] ++ [])) ++ ([] ++ [])) ++ z_to_string (Z.gcd a b) ++ [c_nl]) ++ [])) as (w & st' & R & V & O).
  - unfold gcd_code. tree.
  - tree.
  - split; [repeat constructor; intros []|]. constructor; [|constructor]. split; [free_n|]. constructor; [free_n|constructor; [free_n|constructor]].
  - exists [data_expr gcd_code], [data_expr (CList [sy $"println"; CList [sy $"gcd"; nu a; nu b]])]. split; [reflexivity|]. split.
    + constructor; [|constructor]. eexists. split; [reflexivity|]. cbn [snd gcd_defs]. apply mt_block. unfold gcd_test, gcd_round. repeat (constructor; try (unfold fits; lia); try (vm_compute; intuition discriminate)).
    + constructor; [|constructor]. constructor. constructor; [vm_compute; intuition discriminate|]. repeat apply xs_cons; try apply xs_nil; constructor; assumption.
  - discriminate.
  - eapply da_next; [|constructor]. eapply do_print with (v := NumV (Z.gcd a b)); [|reflexivity]. eapply yi_call with (r := true) (vs := [NumV a; NumV b]); [reflexivity|repeat (apply ya_cons; [constructor|]); constructor|reflexivity| | | |discriminate].
    + constructor; [cbn; intuition discriminate|]. constructor; [intros []|constructor].
    + constructor; [apply gcd_tidy; cbn; tauto|]. constructor; [apply gcd_tidy; cbn; tauto|constructor].
    + constructor. eapply da_next; [constructor; exact LO|]. eapply da_leave. constructor. constructor. exact RA.
  - destruct (res_text _ _ _ V) as (u & -> & IS). exists u, st'. split; [|split; [exact IS|rewrite app_nil_r in O; exact O]].
    replace ($"(defn gcd (a b) (do (while (> b 0) (do (def t (% a b)) (setf a b) (setf b t))) (return a))) (println (gcd " ++ z_to_string a ++ $" " ++ z_to_string b ++ $"))")
      with (written gcd_code ++ $" " ++ written (CList [sy $"println"; CList [sy $"gcd"; nu a; nu b]])); [exact R|].
    cbn. rewrite <- ?app_assoc. cbn. rewrite <- ?app_assoc. reflexivity.
Qed.

(** *** Sums of squares *)
Definition square_code : SpecMacro.code := CList [sy $"defn"; sy $"square"; CList [sy $"x"]; CList [sy $"*"; sy $"x"; sy $"x"]].
Definition square_defs : list fundef := [($"square", ([$"x"], Exp (Bin Mul (Name $"x") (Name $"x"))))].
Definition squares_exp (zs : list Z) : exp := Gather $"+" (Each $"square" (Prim $"list" (map (fun z => Const (NumV z)) zs))) (Const (NumV 0)).
Definition squares_code (zs : list Z) : SpecMacro.code :=
  CList [sy $"println"; CList [sy $"reduce"; sy $"+"; CList [sy $"map"; sy $"square"; CList (sy $"list" :: map nu zs)]; nu 0]].
Lemma squares_pos : forall zs, (0 <= squares zs)%Z.
Proof. induction zs as [|z zs IH]; [apply Z.le_refl|]. cbn [squares fold_right]. fold (squares zs). nia. Qed.
Lemma squares_fit : forall zs, fits (squares zs) -> Forall (fun z => fits z /\ fits (z * z)) zs.
Proof.
  induction zs as [|z zs IH]; intro H; [constructor|]. unfold squares in H. cbn [fold_right] in H. fold (squares zs) in H. pose proof (squares_pos zs) as P. unfold fits in H.
  constructor; [unfold fits; nia|apply IH; unfold fits; nia].
Qed.
Lemma square_tidy : tidy (table square_defs) $"x".
Proof. split; [discriminate|]. split; [vm_compute; intuition discriminate|]. split; [vm_compute; intuition discriminate|reflexivity]. Qed.
Lemma consts_yield : forall F m zs, yield_all F m (map (fun z => Const (NumV z)) zs) (map NumV zs) [].
Proof. intros F m. induction zs as [|z zs IH]; cbn [map]; [constructor|]. change (@nil ascii) with (@nil ascii ++ []). apply ya_cons; [constructor|exact IH]. Qed.
Lemma square_each : forall zs, Forall (fun z => fits z /\ fits (z * z)) zs -> each (table square_defs) $"square" (map NumV zs) (map (fun z => NumV (z * z)) zs) [].
Proof.
  induction zs as [|z zs IH]; intro H; cbn [map]; [constructor|]. inversion H as [|? ? (A & B) C]; subst. change (@nil ascii) with (@nil ascii ++ []). apply ec_next; [|apply IH, C].
  eapply ap_fun with (r := false); [reflexivity|reflexivity|repeat constructor; intros []|constructor; [apply square_tidy|constructor]| |discriminate].
  constructor. change (@nil ascii) with (@nil ascii ++ []). eapply yi_bin; [constructor; reflexivity|constructor; reflexivity|constructor; exact B].
Qed.
Lemma squares_gathered : forall F zs a, (0 <= a)%Z -> fits (squares zs + a) -> gathers F $"+" (map (fun z => NumV (z * z)) zs) (NumV a) (NumV (squares zs + a)) [].
Proof.
  intro F. induction zs as [|z zs IH]; intros a P H; cbn [map]; [apply ga_end|]. assert (E : (squares (z :: zs) + a = squares zs + (z * z + a))%Z) by (unfold squares; cbn [fold_right]; lia).
  rewrite E in *. pose proof (squares_pos zs). change (@nil ascii) with (@nil ascii ++ []). eapply ga_next with (v1 := NumV (z * z + a)); [|apply IH; [nia|exact H]].
  apply ap_prim. apply (pr_op Add). constructor. unfold fits in *. nia.
Qed.
Lemma numbers_text : forall zs, Forall fits zs -> exps_text (map (fun z => Const (NumV z)) zs) (map data_expr (map nu zs)).
Proof. induction zs as [|z zs IH]; intro H; cbn [map]; [constructor|]. inversion H; subst. constructor; [constructor; assumption|apply IH; assumption]. Qed.
Lemma numbers_written : forall zs t, written (CList (sy t :: map nu zs)) = $"(" ++ t ++ concat (map (fun z => $" " ++ z_to_string z) zs) ++ $")".
Proof.
  assert (Q : forall zs z, (fix go (ts : list SpecMacro.code) : str := match ts with [] => [] | [t] => written t | t :: ts' => written t ++ $" " ++ go ts' end) (nu z :: map nu zs) =
    z_to_string z ++ concat (map (fun z => $" " ++ z_to_string z) zs)).
  { induction zs as [|y zs IH]; intro z; [cbn; rewrite app_nil_r; reflexivity|]. cbn [map concat]. specialize (IH y). cbn [map] in IH |- *. rewrite IH. reflexivity. }
  intros [|z zs] t; [reflexivity|]. cbn [map concat]. specialize (Q zs z). cbn [written]. cbn [map] in Q. rewrite Q. rewrite <- !app_assoc. reflexivity.
Qed.
Theorem squares_program : forall inp files e modname zs, fits (squares zs) ->
  exists w st', runs false false ($"(defn square (x) (* x x)) (println (reduce + (map square (list" ++ concat (map (fun z => $" " ++ z_to_string z) zs) ++ $")) 0))") modname (init_state inp files e) (Val (Some w)) st' /\
    is_str w (z_to_string (squares zs)) /\ st_out st' = z_to_string (squares zs) ++ [c_nl].
Proof.
  intros inp files e modname zs H. pose proof (squares_fit zs H) as FS. assert (FZ : Forall fits zs) by (eapply Forall_impl; [|exact FS]; intros z (A & _); exact A).
  destruct (trees_run inp files e modname square_defs [Print (squares_exp zs)] square_code (squares_code zs) empty_store (TextV (z_to_string (squares zs))) false
    (((([] ++ []) ++ ([] ++ [])) ++ z_to_string (squares zs) ++ [c_nl]) ++ [])) as (w & st' & R & V & O).
  - unfold square_code. tree.
  - unfold squares_code. apply li_ok. apply Forall_cons; [sym|]. apply Forall_cons; [|apply Forall_nil]. apply li_ok. apply Forall_cons; [sym|]. apply Forall_cons; [sym|].
    apply Forall_cons; [|apply Forall_cons; [apply nu_ok; unfold fits; lia|apply Forall_nil]]. apply li_ok. apply Forall_cons; [sym|]. apply Forall_cons; [sym|]. apply Forall_cons; [|apply Forall_nil].
    apply li_ok. apply Forall_cons; [sym|]. clear - FZ. induction FZ as [|z zs A B IH]; cbn [map]; [apply Forall_nil|apply Forall_cons; [apply nu_ok, A|exact IH]].
  - split; [repeat constructor; intros []|]. constructor; [|constructor]. split; [free_n|]. constructor; [free_n|constructor].
  - exists [data_expr square_code], [data_expr (squares_code zs)]. split; [reflexivity|]. split.
    + constructor; [|constructor]. eexists. split; [reflexivity|]. apply mt_exp. repeat (constructor; try (vm_compute; intuition discriminate)).
    + constructor; [|constructor]. unfold squares_code. cbn [data_expr map]. apply mt_print. unfold squares_exp. apply xt_gather; [|constructor; unfold fits; lia]. apply xt_each.
      apply xt_prim; [vm_compute; intuition discriminate|]. apply numbers_text, FZ.
  - discriminate.
  - eapply da_next; [|constructor]. eapply do_print with (v := NumV (squares zs)); [|reflexivity]. unfold squares_exp. eapply yi_gather with (vs := map (fun z => NumV (z * z)) zs) (v0 := NumV 0).
    + left. vm_compute. tauto.
    + eapply yi_each with (vs := map NumV zs); [right; discriminate| |apply square_each, FS]. eapply yi_prim; [apply consts_yield|apply pr_list].
    + constructor.
    + rewrite <- (Z.add_0_r (squares zs)). apply squares_gathered; [lia|]. rewrite Z.add_0_r. exact H.
  - destruct (res_text _ _ _ V) as (u & -> & IS). exists u, st'. split; [|split; [exact IS|rewrite app_nil_r in O; exact O]].
    replace ($"(defn square (x) (* x x)) (println (reduce + (map square (list" ++ concat (map (fun z => $" " ++ z_to_string z) zs) ++ $")) 0))") with (written square_code ++ $" " ++ written (squares_code zs)); [exact R|].
    assert (Q : forall L, written (CList [sy $"println"; CList [sy $"reduce"; sy $"+"; CList [sy $"map"; sy $"square"; L]; nu 0]]) = $"(println (reduce + (map square " ++ written L ++ $") 0))").
    { intro L. cbn. rewrite <- ?app_assoc. reflexivity. }
    unfold squares_code. rewrite Q, numbers_written. cbn. rewrite <- ?app_assoc. reflexivity.
Qed.

(** ** Statements *)
Lemma statement_runs : forall F m b m' v r o g st s p, does F m b m' v r o -> world F st g -> frame F st s g m -> leaving st s false -> stm_at st p b ->
  exists w st', evals p s st (Val w) st' /\ (forall o2 st2, evals p s st o2 st2 -> o2 = Val w /\ st2 = st') /\
    res_is st' w v /\ keeps (eq s) (its_variables F s) st st' /\ world F st' g /\ frame F st' s g m' /\ leaving st' s r /\ st_out st' = st_out st ++ o.
Proof.
  intros F m b m' v r o g st s p D W R L SA. pose proof (all_good F) as (_ & _ & GS & _). destruct (GS _ _ _ _ _ _ D g st s p W R L SA) as (w & st' & EV & Q). exists w, st'. split; [exact EV|].
  split; [|exact Q]. intros o2 st2 E2. eapply evals_det; eassumption.
Qed.
Lemma program_runs_only : forall inp files e modname defs ss l s ks m' v r o, well_named defs -> program_text defs ss l -> ss <> [] -> src_ok s -> src_kinds s ks -> writes_all l ks ->
  do_all (table defs) empty_store ss NoV m' v r o ->
  exists w st', runs false false (src_text s) modname (init_state inp files e) (Val w) st' /\
    (forall o2 st2, runs false false (src_text s) modname (init_state inp files e) o2 st2 -> o2 = Val w /\ st2 = st') /\
    res_is st' w v /\ st_out st' = o /\ (forall x u, m' x = Some u -> exists i z, var_at st' main_sid x = Some (P i (OVar z)) /\ val_is st' z u) /\
    st_in st' = inp /\ st_files st' = files /\ st_env st' = e.
Proof.
  intros inp files e modname defs ss l s ks m' v r o WN PT NE OK KS WR DO. destruct (program_runs inp files e modname defs ss l s ks m' v r o WN PT NE OK KS WR DO) as (w & st' & RU & Q).
  exists w, st'. split; [exact RU|]. split; [|exact Q]. intros o2 st2 E2. eapply runs_det; eassumption.
Qed.

(** ** Cases for the theorems *)
Definition ex_prog : list stm := [Def $"x" (Const (NumV 5)); While (Bin More (Name $"x") (Const (NumV 0))) (Set_ $"x" (Bin Sub (Name $"x") (Const (NumV 1)))); Print (Name $"x")].
Definition ex_code : list SpecMacro.code := [CList [sy $"def"; sy $"x"; nu 5]; CList [sy $"while"; CList [sy $">"; sy $"x"; nu 0]; CList [sy $"setf"; sy $"x"; CList [sy $"-"; sy $"x"; nu 1]]]; CList [sy $"println"; sy $"x"]].
Lemma sources_write : forall ts, Forall readable ts -> exists ks, src_ok (data_sources ts) /\ src_kinds (data_sources ts) ks /\ writes_all (map data_expr ts) ks.
Proof.
  induction ts as [|t [|u ts] IH]; intro R; [exists []; split; [exact Logic.I|split; [exact Logic.I|constructor]]| |]; inversion R as [|? ? R1 R2]; subst; destruct (source_writes t R1) as (k1 & W1 & K1).
  - exists (k1 ++ []). split; [cbn [data_sources]; rewrite <- (app_nil_r (data_source t [])); apply source_ok; [exact R1|reflexivity|intros _; exact Logic.I|exact Logic.I]|]. rewrite app_nil_r. split; [apply K1|].
    rewrite <- (app_nil_r k1). apply ws_cons; [exact W1|constructor].
  - destruct (IH R2) as (k2 & O & K2 & W2). exists (k1 ++ k2). change (data_sources (t :: u :: ts)) with (data_source t [c_space] ++ data_sources (u :: ts)). 
    split; [apply source_ok; [exact R1|reflexivity|intro X; discriminate|exact O]|]. split; [apply src_kinds_app_intro; [apply K1|exact K2]|]. apply (ws_cons (data_expr t) (map data_expr (u :: ts)) k1 k2 W1 W2).
Qed.
Lemma ex_tidy : tidy (table []) $"x".
Proof. split; [discriminate|]. split; [vm_compute; intuition discriminate|]. split; [vm_compute; intuition discriminate|reflexivity]. Qed.
Lemma ex_rounds : forall n m v0, (n < 6)%nat -> m $"x" = Some (NumV (Z.of_nat n)) -> exists m' v, loops (table []) m (Bin More (Name $"x") (Const (NumV 0))) (Set_ $"x" (Bin Sub (Name $"x") (Const (NumV 1)))) v0 m' v false [] /\ m' $"x" = Some (NumV 0).
Proof.
  induction n as [|n IH]; intros m v0 L M.
  - exists m, v0. split; [|exact M]. apply lo_end. change false with (Z.ltb 0 0). change (@nil ascii) with (@nil ascii ++ []). eapply yi_bin; [constructor; exact M|constructor|constructor].
  - destruct (IH (update m $"x" (NumV (Z.of_nat n))) (NumV (Z.of_nat n))) as (m' & v & LO & E); [lia|reflexivity|]. exists m', v. split; [|exact E]. change (@nil ascii) with (([] ++ []) ++ ([] ++ []) ++ @nil ascii).
    eapply lo_next; [change true with (Z.ltb 0 (Z.of_nat (S n))); eapply yi_bin; [constructor; exact M|constructor|constructor]| |exact LO].
    apply do_set; [apply ex_tidy|rewrite M; discriminate|]. replace (Z.of_nat n) with (Z.of_nat (S n) - 1)%Z by lia. eapply yi_bin; [constructor; exact M|constructor|]. constructor. unfold fits. lia.
Qed.
Lemma ex_program : exists s ks m', src_text s = $"(def x 5) (while (> x 0) (setf x (- x 1))) (println x)" /\ src_ok s /\ src_kinds s ks /\ writes_all (map data_expr ex_code) ks /\ well_named [] /\
  program_text [] ex_prog (map data_expr ex_code) /\ do_all (table []) empty_store ex_prog NoV m' (TextV $"0") false ($"0" ++ [c_nl]).
Proof.
  destruct (sources_write ex_code) as (ks & O & K & W); [unfold ex_code; repeat apply Forall_cons; try apply Forall_nil; tree|].
  destruct (ex_rounds 5 (update empty_store $"x" (NumV 5)) NoV) as (m' & v & LO & E); [lia|reflexivity|].
  exists (data_sources ex_code), ks, m'. split; [vm_compute; reflexivity|]. split; [exact O|]. split; [exact K|]. split; [exact W|]. split; [split; constructor|]. split.
  - exists [], (map data_expr ex_code). split; [reflexivity|]. split; [constructor|]. unfold ex_prog. repeat (constructor; try (unfold fits; lia); try (vm_compute; intuition discriminate)).
  - change ($"0" ++ [c_nl]) with ([] ++ ([] ++ (([] ++ $"0" ++ [c_nl]) ++ []))). eapply da_next; [apply do_def; [apply ex_tidy|constructor]|]. eapply da_next; [constructor; exact LO|].
    eapply da_next; [|constructor]. eapply do_print; [constructor; exact E|reflexivity].
Qed.
Lemma ex_statement : exists st p m' v r o, world (table fib_defs) st main_sid /\ frame (table fib_defs) st main_sid main_sid empty_store /\ leaving st main_sid false /\
  stm_at st p (Print (Call $"fib" [Const (NumV 9)])) /\ does (table fib_defs) empty_store (Print (Call $"fib" [Const (NumV 9)])) m' v r o.
Proof.
  set (ts := [fib_code; CList [sy $"println"; CList [sy $"fib"; nu 9]]]).
  destruct (sources_write ts) as (ks & O & K & W); [unfold ts, fib_code; repeat apply Forall_cons; try apply Forall_nil; tree|].
  destruct (program_loaded [] [] (Env (fun _ => true) None []) [] fib_defs [Print (Call $"fib" [Const (NumV 9)])] (map data_expr ts) (data_sources ts) ks) as (r1 & st3 & q2 & (WO & _ & FR & LE) & SA & _); try assumption.
  - split; [repeat constructor; intros []|]. constructor; [|constructor]. split; [free_n|]. constructor; [free_n|constructor].
  - exists [data_expr fib_code], [data_expr (CList [sy $"println"; CList [sy $"fib"; nu 9]])]. split; [reflexivity|]. split.
    + constructor; [|constructor]. eexists. split; [reflexivity|]. apply mt_exp. unfold fib_body. repeat (constructor; try (unfold fits; lia); try (vm_compute; intuition discriminate)).
    + constructor; [|constructor]. constructor. constructor; [vm_compute; intuition discriminate|]. repeat constructor; discriminate.
  - inversion SA as [|i l ps b ss S1 S2]; subst. do 6 eexists. split; [exact WO|]. split; [exact FR|]. split; [exact LE|]. split; [exact S1|].
    eapply do_print with (v := NumV (fib 9)); [|reflexivity]. eapply yi_call with (r := false) (vs := [NumV 9]); [reflexivity|apply ya_cons; constructor|reflexivity|repeat constructor; intros []|apply fib_tidy| |discriminate].
    constructor. apply (fib_body_yields 9). lia.
Qed.
