(** * P_Gap: missing samples (C89). *)
From Verif Require Import Fl M_Utils M_EM M_Anis M_Fluid M_GM M_Emp M_AVO M_QI M_Array M_ArrayFns M_Store Spec16 Spec25 L_Array P_Array L_Gap.
Open Scope fl_scope.

(** Any function without a test: a gap shows, in both kinds of arithmetic. *)
Theorem C89_straight : forall m n p, straight p = true -> gap_shows m n p.
Proof. exact straight_shows. Qed.
Print Assumptions C89_straight.
(** All 85 functions, those with tests included. *)
Theorem C89_programs : forall m n p, In (n, p) programs -> gap_shows m n p.
Proof.
  intros m n p H. unfold programs in H.
  repeat (destruct H as [[= <- <-]|H];
    [first [apply straight_shows; reflexivity | apply ok_shows; [cbv [plits lits flat_map app]; repeat constructor; lra | vm_compute; reflexivity]]|]).
  destruct H.
Qed.
Print Assumptions C89_programs.

(** Arrays: at a sample where argument k is missing every result is missing, unless no other value there would change it ... *)
Lemma same_but_map k i env env' : same_but k i env env' -> (k < length env)%nat ->
  map (elem i) env' = fill k (elem i (nth k env' (VS Und))) (map (elem i) env).
Proof.
  intros [L H] K. apply (nth_ext _ _ Und Und).
  - rewrite fill_length; rewrite !map_length; auto.
  - intros n N. rewrite map_length in N. rewrite fill_nth by (rewrite map_length; exact K).
    change Und with (elem i (VS Und)). rewrite !map_nth. destruct (Nat.eqb_spec n k) as [->|D]; [reflexivity|auto].
Qed.
Lemma elem_no_exc i v : is_value v -> no_exc (elem i v).
Proof.
  destruct v as [x|[|x [|y l]]]; intros W.
  - exact W.
  - destruct i; exact I.
  - apply W. left; reflexivity.
  - change (no_exc (nth i (x :: y :: l) Und)). destruct (nth_in_or_default i (x :: y :: l) Und) as [G|G]; [apply W; exact G|rewrite G; exact I].
Qed.
Theorem C89_arrays : forall p n env, straight p = true -> args_ok n env ->
  exists out, run_arr NumPy p env = Ret out /\
    (forall k i, (k < length env)%nat -> (i < n)%nat -> elem i (nth k env (VS Und)) = NaN ->
       forall j, (j < length out)%nat -> elem i (nth j out (VS Und)) = NaN \/ elem i (nth j out (VS Und)) = Und \/
         forall env' out', args_ok n env' -> same_but k i env env' -> run_arr NumPy p env' = Ret out' ->
           elem i (nth j out' (VS Und)) = elem i (nth j out (VS Und)) \/ elem i (nth j out' (VS Und)) = Und) /\
    (** ... and the other samples are what they are without the gap. *)
    (forall i env' out', (i < n)%nat -> args_ok n env' -> same_at i env env' -> run_arr NumPy p env' = Ret out' -> same_at i out out').
Proof.
  intros p n env S H. destruct (C79_arrays_elementwise p n env S H) as (out & E & _ & R). exists out. split; [exact E|]. split.
  - intros k i K I N j J.
    assert (Q : forall o, nth j (map (elem i) o) Und = elem i (nth j o (VS Und))) by (intros; change Und with (elem i (VS Und)) at 1; apply map_nth).
    rewrite <- Q.
    destruct (straight_shows NumPy (length env) p S (map (elem i) env) k (map (elem i) out)) with (j := j) as [X|[X|X]]; auto.
    + apply map_length.
    + intros x X. apply in_map_iff in X as (v & <- & V). apply elem_no_exc, (H v V).
    + change Und with (elem i (VS Und)). rewrite map_nth. exact N.
    + rewrite map_length; exact J.
    + right. right. intros env' out' H' B E'. rewrite <- Q. 
      destruct (C79_arrays_elementwise p n env' S H') as (o & Eo & _ & Ro). rewrite E' in Eo. injection Eo as <-.
      specialize (Ro i I). rewrite (same_but_map k i env env' B K) in Ro. apply X with (2 := Ro).
      assert (V : In (nth k env' (VS Und)) env') by (apply nth_In; rewrite (proj1 B); exact K).
      apply elem_no_exc, (H' _ V).
  - intros i env' out' I H' B E'. destruct (C79_arrays_elementwise p n env' S H') as (o & Eo & _ & Ro). rewrite E' in Eo. injection Eo as <-.
    specialize (R i I). specialize (Ro i I). rewrite B in Ro. unfold same_at. congruence.
Qed.
Print Assumptions C89_arrays.

(** ** Averages: a gap in one constituent or layer blanks the whole average. *)
Definition clean (l : list fl) : Prop := forall x, In x l -> no_exc x.
Lemma fadd_no_exc x y : no_exc x -> no_exc y -> no_exc (x + y).
Proof. destruct x, y; cbn; tauto. Qed.
Lemma fmul_no_exc x y : no_exc x -> no_exc y -> no_exc (x * y).
Proof. destruct x, y; cbn; try tauto; destruct (Req_EM_T _ _); cbn; tauto. Qed.
Lemma fdivn_no_exc x y : no_exc x -> no_exc y -> no_exc (x /n y).
Proof. destruct x, y; cbn; try tauto; repeat destruct (Req_EM_T _ _); cbn; tauto. Qed.
Lemma fsum_no_exc l : clean l -> no_exc (fsum l).
Proof. induction l as [|x l IH]; intros C; cbn [fsum]; [exact I|]. apply fadd_no_exc; [apply C; left; auto|apply IH; intros y Y; apply C; right; auto]. Qed.
Lemma nan_add_l y : no_exc y -> NaN + y = NaN.
Proof. destruct y; cbn; tauto. Qed.
Lemma nan_add_r y : no_exc y -> y + NaN = NaN.
Proof. destruct y; cbn; tauto. Qed.
Lemma nan_mul_l y : no_exc y -> NaN * y = NaN.
Proof. destruct y; cbn; tauto. Qed.
Lemma nan_mul_r y : no_exc y -> y * NaN = NaN.
Proof. destruct y; cbn; tauto. Qed.
Lemma nan_sub_l y : no_exc y -> NaN - y = NaN.
Proof. destruct y; cbn; tauto. Qed.
Lemma nan_sub_r y : no_exc y -> y - NaN = NaN.
Proof. destruct y; cbn; tauto. Qed.
Lemma nan_div_l y : no_exc y -> NaN /n y = NaN.
Proof. destruct y; cbn; try tauto. destruct (Req_EM_T _ _); auto. Qed.
Lemma nan_div_r y : no_exc y -> y /n NaN = NaN.
Proof. destruct y; cbn; tauto. Qed.
Lemma fsum_nan l : clean l -> In NaN l -> fsum l = NaN.
Proof.
  induction l as [|x l IH]; intros C H; [destruct H|]. cbn [fsum]. assert (C' : clean l) by (intros y Y; apply C; right; auto).
  destruct H as [->|H].
  - apply nan_add_l, fsum_no_exc, C'.
  - rewrite IH by auto. apply nan_add_r, C. left; auto.
Qed.
Lemma fmap2_clean f a b : (forall x y, no_exc x -> no_exc y -> no_exc (f x y)) -> clean a -> clean b -> clean (fmap2 f a b).
Proof.
  intros F. revert b. induction a as [|x a IH]; intros [|y b] A B z Z; cbn in Z; try tauto. destruct Z as [<-|Z].
  - apply F; [apply A|apply B]; left; auto.
  - apply (IH b); auto; intros w W; [apply A|apply B]; right; auto.
Qed.
Lemma fmap2_nan f a b : length a = length b -> (forall x y, no_exc x -> no_exc y -> x = NaN \/ y = NaN -> f x y = NaN) -> clean a -> clean b ->
  In NaN a \/ In NaN b -> In NaN (fmap2 f a b).
Proof.
  intros L F. revert b L. induction a as [|x a IH]; intros [|y b] L A B H; cbn in L; try discriminate; [cbn in H; tauto|]. cbn [fmap2].
  assert (X : no_exc x) by (apply A; left; auto). assert (Y : no_exc y) by (apply B; left; auto).
  destruct H as [[->|H]|[->|H]]; [left; apply F; auto| |left; apply F; auto|]; right; apply IH; auto; intros w W; [apply A|apply B|apply A|apply B]; right; auto.
Qed.
Lemma fdot_nan a b : length a = length b -> clean a -> clean b -> In NaN a \/ In NaN b -> fdot a b = NaN.
Proof.
  intros L A B H. unfold fdot. apply fsum_nan; [apply fmap2_clean; auto using fmul_no_exc|]. apply fmap2_nan; auto.
  intros x y X Y [->| ->]; [apply nan_mul_l|apply nan_mul_r]; auto.
Qed.
Lemma fdot_no_exc a b : clean a -> clean b -> no_exc (fdot a b).
Proof. intros. apply fsum_no_exc, fmap2_clean; auto using fmul_no_exc. Qed.
Lemma map_clean f l : (forall x, no_exc x -> no_exc (f x)) -> clean l -> clean (map f l).
Proof. intros F C y Y. apply in_map_iff in Y as (x & <- & X). auto. Qed.
Lemma map_nan f l : f NaN = NaN -> In NaN l -> In NaN (map f l).
Proof. intros E H. rewrite <- E. apply in_map. exact H. Qed.
Lemma bind_ok B x (k : fl -> outcome B) : no_exc x -> bind x k = k x.
Proof. destruct x; cbn; tauto. Qed.

Theorem C89_VRH : forall volumes M, length volumes = length M -> clean volumes -> clean M -> In NaN volumes \/ In NaN M ->
  EM_VRH volumes M = Ret (NaN, NaN, NaN).
Proof.
  intros v M L Cv CM H. unfold EM_VRH. rewrite L, Nat.eqb_refl. cbn [negb].
  rewrite (fdot_nan v M L Cv CM H).
  rewrite (fdot_nan v (map (fun x => #1 /n x) M)).
  - reflexivity.
  - rewrite map_length; exact L.
  - exact Cv.
  - apply map_clean; auto. intros x X. apply fdivn_no_exc; auto. exact I.
  - destruct H; [auto|]. right. apply map_nan; auto.
Qed.
Print Assumptions C89_VRH.
(** Backus' average: a layer without thickness or shear modulus blanks all five stiffnesses; one without Lame's constant blanks
    the three that depend on it, and leaves C44 and C66 what they are. *)
Lemma div_clean s V : no_exc s -> clean V -> clean (map (fun v => v /n s) V).
Proof. intros S C. apply map_clean; auto. intros x X. apply fdivn_no_exc; auto. Qed.
Theorem C89_Backus : forall V lamda G, length V = length G -> length lamda = length G -> clean V -> clean lamda -> clean G ->
  (In NaN V \/ In NaN G -> Anis_Backus V lamda G = Ret (NaN, NaN, NaN, NaN, NaN)) /\
  (In NaN lamda -> exists C44 C66, Anis_Backus V lamda G = Ret (NaN, NaN, NaN, C44, C66) /\
     forall lamda' C11 C33 C13 C44' C66', length lamda' = length G -> clean lamda' ->
       Anis_Backus V lamda' G = Ret (C11, C33, C13, C44', C66') -> C44' = C44 /\ C66' = C66).
Proof.
  intros V lam G LV Ll CV Cl CG.
  assert (F2 : forall l g, no_exc l -> no_exc g -> no_exc (l + #2 * g)).
  { intros; apply fadd_no_exc; auto. apply fmul_no_exc; auto. exact I. }
  assert (S : no_exc (fsum V)) by (apply fsum_no_exc; auto).
  set (V' := map (fun v => v /n fsum V) V).
  assert (LV' : length V' = length G) by (unfold V'; rewrite map_length; auto).
  assert (CV' : clean V') by (apply div_clean; auto).
  set (f1 := fun l g => #1 /n (l + #2 * g)). set (f2 := fun l g => l /n (l + #2 * g)). set (f3 := fun l g => #4 * g * (l + g) /n (l + #2 * g)).
  assert (N1 : forall l g, no_exc l -> no_exc g -> no_exc (f1 l g)) by (intros; apply fdivn_no_exc; auto; exact I).
  assert (N2 : forall l g, no_exc l -> no_exc g -> no_exc (f2 l g)) by (intros; apply fdivn_no_exc; auto; exact I).
  assert (N3 : forall l g, no_exc l -> no_exc g -> no_exc (f3 l g)).
  { intros; apply fdivn_no_exc; auto. repeat apply fmul_no_exc; auto using fadd_no_exc. exact I. }
  assert (Q2 : forall l g, no_exc l -> no_exc g -> l = NaN \/ g = NaN -> l + #2 * g = NaN).
  { intros l g A B [->| ->]; [apply nan_add_l; apply fmul_no_exc; auto; exact I|]. cbn [fmul]. apply nan_add_r; auto. }
  assert (Q1' : forall l g, no_exc l -> no_exc g -> l = NaN \/ g = NaN -> f1 l g = NaN) by (intros; unfold f1; rewrite Q2; auto).
  assert (Q2' : forall l g, no_exc l -> no_exc g -> l = NaN \/ g = NaN -> f2 l g = NaN) by (intros; unfold f2; rewrite Q2; auto; apply nan_div_r; auto).
  assert (Q3' : forall l g, no_exc l -> no_exc g -> l = NaN \/ g = NaN -> f3 l g = NaN).
  { intros; unfold f3; rewrite Q2 by auto. apply nan_div_r. repeat apply fmul_no_exc; auto using fadd_no_exc. exact I. }
  assert (LF : forall f (a b : list fl), length a = length b -> length (fmap2 f a b) = length b).
  { intros f a. induction a as [|x a IH]; intros [|y b]; cbn; try discriminate; auto. }
  assert (EQ : forall lam, length lam = length G -> clean lam -> exists d33 dr d11 C44 C66,
     d33 = fdot V' (fmap2 f1 lam G) /\ dr = fdot V' (fmap2 f2 lam G) /\ d11 = fdot V' (fmap2 f3 lam G) /\
     C44 = #1 /n fdot V' (map (fun g => #1 /n g) G) /\ C66 = fdot V' G /\
     Anis_Backus V lam G = Ret (d11 + #1 /n d33 * dr ^^ 2, #1 /n d33, #1 /n d33 * dr, C44, C66)).
  { intros lam' L' C'. do 5 eexists. do 5 (split; [reflexivity|]).
    assert (A1 := fdot_no_exc _ _ CV' (fmap2_clean f1 lam' G N1 C' CG)). assert (A2 := fdot_no_exc _ _ CV' (fmap2_clean f2 lam' G N2 C' CG)).
    assert (A3 := fdot_no_exc _ _ CV' (fmap2_clean f3 lam' G N3 C' CG)). assert (A4 := fdot_no_exc _ _ CV' CG).
    assert (CI : clean (map (fun g => #1 /n g) G)) by (apply map_clean; auto; intros; apply fdivn_no_exc; auto; exact I).
    assert (A5 := fdot_no_exc _ _ CV' CI).
    unfold Anis_Backus. rewrite bind_ok by exact S. fold V'. unfold np_map2. rewrite L', Nat.eqb_refl. cbn [call].
    unfold np_dot. fold f1 f2 f3. rewrite !LF, LV' by auto. rewrite map_length, Nat.eqb_refl. cbn [call].
    assert (D1 : no_exc (#1 /n fdot V' (fmap2 f1 lam' G))) by (apply fdivn_no_exc; auto; exact I).
    rewrite bind_ok by exact D1. rewrite bind_ok by (apply fdivn_no_exc; auto; exact I).
    rewrite bind_ok by (apply fmul_no_exc; auto).
    rewrite bind_ok; [reflexivity|]. apply fadd_no_exc; auto. apply fmul_no_exc; auto. destruct (fdot V' (fmap2 f2 lam' G)); cbn; auto. }
  destruct (EQ lam Ll Cl) as (d33 & dr & d11 & C44 & C66 & E33 & Er & E11 & E44 & E66 & E).
  assert (X1 := fmap2_clean f1 lam G N1 Cl CG). assert (X2 := fmap2_clean f2 lam G N2 Cl CG). assert (X3 := fmap2_clean f3 lam G N3 Cl CG).
  assert (D : In NaN V' \/ In NaN lam \/ In NaN G -> d33 = NaN /\ dr = NaN /\ d11 = NaN).
  { intros H. assert (K : forall f, clean (fmap2 f lam G) -> (forall l g, no_exc l -> no_exc g -> l = NaN \/ g = NaN -> f l g = NaN) ->
      fdot V' (fmap2 f lam G) = NaN).
    { intros f CF QF. apply fdot_nan; auto; [rewrite LF by auto; exact LV'|]. destruct H as [H|H]; [auto|right]. apply fmap2_nan; auto. }
    subst. auto. }
  split.
  - intros H. assert (H' : In NaN V' \/ In NaN G).
    { destruct H as [H|H]; [left|right; exact H]. unfold V'. apply map_nan; [|exact H]. apply nan_div_l; exact S. }
    destruct D as (-> & -> & ->); [tauto|]. rewrite E. cbn [fdiv fmul fadd fpown]. 
    assert (Z44 : C44 = NaN). { subst C44. rewrite (fdot_nan V'); [reflexivity|rewrite map_length; exact LV'|exact CV'| |].
      - apply map_clean; auto. intros; apply fdivn_no_exc; auto; exact I.
      - destruct H' as [H'|H']; [auto|right]. apply map_nan; auto. }
    assert (Z66 : C66 = NaN). { subst C66. apply fdot_nan; auto. }
    rewrite Z44, Z66. reflexivity.
  - intros H. exists C44, C66. destruct D as (-> & -> & ->); [tauto|]. rewrite E. split; [reflexivity|].
    intros lam' a b c C44' C66' L' C' R. destruct (EQ lam' L' C') as (? & ? & ? & D44 & D66 & _ & _ & _ & F44 & F66 & R'). rewrite R in R'.
    injection R'; intros. subst. auto.
Qed.
Print Assumptions C89_Backus.

(** ** Expectations that fail *)
(** [QI.normalize]: one missing sample blanks the whole log. *)
Lemma fold_max_nan l : forall x, clean l -> (x = NaN \/ In NaN l) -> fold_left fmax2 l x = NaN.
Proof.
  induction l as [|y l IH]; intros x C H; cbn [fold_left]; [destruct H as [H|[]]; exact H|].
  apply IH; [intros z Z; apply C; right; auto|]. destruct H as [->|[->|H]]; [left|left|auto].
  - destruct y; reflexivity.
  - destruct x; reflexivity.
Qed.
Theorem C89_normalize_refuted : forall log, clean log -> In NaN log -> QI_normalize log = Ret (repeat NaN (length log)).
Proof.
  intros [|x l] C H; [destruct H|]. unfold QI_normalize, np_max. cbn [call].
  rewrite fold_max_nan; [|intros y Y; apply C; right; auto|destruct H; auto].
  f_equal. clear H. induction (x :: l) as [|y ys IH]; [reflexivity|]. cbn [map length repeat]. rewrite IH by (intros z Z; apply C; right; auto).
  f_equal. assert (no_exc y) by (apply C; left; auto). rewrite nan_sub_l by auto. reflexivity.
Qed.
Print Assumptions C89_normalize_refuted.
(** [GM.diluting]: a missing stress gives the factor 0, a number - whatever the true stress would have given. *)
Theorem C89_diluting_refuted : forall m k sigma0 m_ a b, m_ <> 0 -> exists va vb,
  GM_diluting m (Fin k) (Fin sigma0) (SArray (a ++ NaN :: b)) (Fin m_) = Ret (va ++ #0 :: vb) /\ length va = length a.
Proof.
  intros m k s0 e a b E. cbn [GM_diluting]. rewrite map_app. cbn [map]. do 2 eexists. split; [|rewrite map_length; reflexivity]. do 2 f_equal.
  f_equal. rewrite nan_div_l by exact I. cbn [fsub fpow]. destruct (Req_EM_T e 0); [contradiction|reflexivity].
Qed.
Print Assumptions C89_diluting_refuted.
(** [AVO.EI_ref] with normalisation: one missing P velocity blanks the P impedances of the whole log. *)
Lemma bind_ret B x (k : fl -> outcome B) o : bind x k = Ret o -> no_exc x /\ k x = Ret o.
Proof. destruct x; cbn; auto; discriminate. Qed.
Lemma fmul_nanx x y : nanx x \/ nanx y -> nanx (x * y).
Proof. apply (nanx2 NumPy OMul); congruence. Qed.
Lemma nanx_nan x : nanx x -> no_exc x -> x = NaN.
Proof. destruct x; cbn; tauto. Qed.
Lemma omap_in A B (f : A -> outcome B) l : forall out, omap f l = Ret out -> forall r, In r out -> exists x, In x l /\ f x = Ret r.
Proof.
  induction l as [|x l IH]; cbn [omap]; intros out E r R.
  - injection E as <-. destruct R.
  - destruct (f x) as [y| |] eqn:F; try discriminate. cbn [call] in E. destruct (omap f l) as [ys| |]; try discriminate. cbn [call] in E.
    injection E as <-. destruct R as [<-|R]; [exists x; split; [left; auto|auto]|]. destruct (IH ys eq_refl r R) as (z & Z & Fz). exists z. split; [right; auto|auto].
Qed.
Lemma ret_eq A (a b : A) : Ret a = Ret b -> a = b.
Proof. congruence. Qed.
Lemma EI_sample_nan m isn Vp0 Vs0 Vp Vs rho theta SP r :
  AVO_EI_sample m NaN isn Vp0 Vs0 Vp Vs rho theta SP = Ret r -> EI_pp r = NaN /\ EI_psv r = NaN.
Proof.
  unfold AVO_EI_sample. intros E. do 6 (apply bind_ret in E as [_ E]). apply bind_ret in E as [N1 E]. do 2 (apply bind_ret in E as [_ E]).
  apply bind_ret in E as [N2 E]. do 4 (apply bind_ret in E as [_ E]). do 5 (apply bind_ret in E as [_ E]).
  apply ret_eq in E. subst r. cbn [EI_pp EI_psv]. split; apply nanx_nan; auto; repeat (lazymatch goal with |- nanx NaN => exact I | _ => apply fmul_nanx; left end).
Qed.
Theorem C89_EI_normalised_refuted : forall m samples theta SP Vs rho out,
  In (NaN, Vs, rho) samples -> (forall a b c, In (a, b, c) samples -> no_exc a /\ no_exc b /\ no_exc c) ->
  AVO_EI_ref m samples theta SP true = Ret out -> forall r, In r out -> EI_pp r = NaN /\ EI_psv r = NaN.
Proof.
  intros m samples theta SP Vs rho out H C E r R. unfold AVO_EI_ref in E. destruct (omap_in _ _ _ _ _ E r R) as ([[a b] c] & I & F).
  assert (M : np_mean (map (fun s : fl * fl * fl => fst (fst s)) samples) = NaN).
  { unfold np_mean. rewrite fsum_nan.
    - apply nan_div_l. exact Logic.I.
    - intros x X. apply in_map_iff in X as ([[x1 x2] x3] & <- & X). exact (proj1 (C _ _ _ X)).
    - apply in_map_iff. exists (NaN, Vs, rho). auto. }
  rewrite M in F. rewrite nan_mul_l in F.
  - eapply EI_sample_nan; exact F.
  - unfold np_mean. apply fdivn_no_exc; [|exact Logic.I]. apply fsum_no_exc. intros x X. apply in_map_iff in X as ([[x1 x2] x3] & <- & X). apply (C _ _ _ X).
Qed.
Print Assumptions C89_EI_normalised_refuted.

(** [QI.estimate_cem]: one missing velocity or porosity in the logs, and the call gives no estimate for any sample. *)
Lemma oseq_in A B (f : A -> outcome B) l : forall out, oseq f l = Ret out -> forall x, In x l -> exists r, f x = Ret r.
Proof.
  induction l as [|y l IH]; cbn [oseq]; intros out E x X; [destruct X|].
  destruct (f y) as [v| |] eqn:F; try discriminate. cbn [call] in E. destruct (oseq f l) as [vs| |]; try discriminate.
  destruct X as [<-|X]; eauto.
Qed.
Lemma fmask_none p l : (forall x, In x l -> p x <> Some true) -> forall out, fmask p l = Ret out -> out = [].
Proof.
  induction l as [|x l IH]; cbn [fmask]; intros H out E; [congruence|].
  assert (X := H x (or_introl eq_refl)). destruct (p x) as [[|]|]; try discriminate; [congruence|].
  destruct (fmask p l) as [o| |] eqn:F; try discriminate. rewrite (IH (fun y Y => H y (or_intror Y)) o eq_refl) in E. cbn in E. congruence.
Qed.
Lemma fcmp_nanx p x y : nanx x \/ nanx y -> fcmp p x y <> Some true.
Proof. intros H. destruct x, y, H as [H|H]; try (exfalso; exact H); cbn; congruence. Qed.
Lemma cem_nan seeds b arr val v : nanx val \/ (forall x, In x arr -> nanx x) -> QI_cem_sample seeds b arr val <> Ret v.
Proof.
  intros H E. unfold QI_cem_sample in E. destruct arr as [|a0 l]; [discriminate|].
  assert (H0 : nanx val \/ nanx a0) by (destruct H as [H|H]; [auto|right; apply H; left; auto]).
  assert (HL : nanx (last (a0 :: l) a0) \/ nanx val).
  { destruct H as [H|H]; [auto|left]. apply H. rewrite (app_removelast_last a0 (l := a0 :: l)) at 2 by discriminate. apply in_or_app. right. left. auto. }
  assert (X1 : fleb val a0 <> Some true) by (apply fcmp_nanx; auto).
  assert (X2 : fleb (last (a0 :: l) a0) val <> Some true) by (apply fcmp_nanx; auto).
  destruct (fleb val a0) as [[|]|]; [congruence| |discriminate]. destruct (fleb (last (a0 :: l) a0) val) as [[|]|]; [congruence| |discriminate].
  destruct (fmask (fun x => fltb x val) (a0 :: l)) as [lo| |] eqn:M; try discriminate.
  apply fmask_none in M; [subst lo; discriminate|]. intros x X. apply fcmp_nanx. destruct H as [H|H]; auto.
Qed.
Lemma vels_nan m K G K0 D Kb Db vp vs rho : Fluid_vels m K G K0 D Kb Db NaN = Ret (vp, vs, rho) -> vp = NaN /\ vs = NaN.
Proof.
  unfold Fluid_vels. intros E. apply bind_ret in E as [_ E]. set (r := D * (#1 - NaN) + Db * NaN) in E.
  assert (R : nanx r) by (apply (nanx2 m OAdd); [congruence..|]; left; apply fmul_nanx; right; exact I).
  destruct (Fluid_Gassmann m K G K0 Kb NaN) as [[k g]| |]; try discriminate. cbn [call] in E.
  apply bind_ret in E as [N1 E]. apply bind_ret in E as [N2 E]. injection E as <- <- _.
  assert (Q : forall z, nanx (fsqrt (fdiv m z r) * #1000)).
  { intros z. apply fmul_nanx. left. apply (nanx1 OSqrt); [|congruence]. apply (nanx2 m ODiv); [congruence..|]. right; exact R. }
  split; apply nanx_nan; auto.
Qed.
Theorem C89_estimate_cem_refuted : forall logs seeds b Kqz Gqz Ksh Gsh phi_c Cn Kc Gc Db Kb scheme vsh Dsh Dqz Dc phi vp out,
  In (phi, vp) logs -> phi = NaN \/ vp = NaN ->
  QI_estimate_cem logs seeds b Kqz Gqz Ksh Gsh phi_c Cn Kc Gc Db Kb scheme vsh Dsh Dqz Dc <> Ret out.
Proof.
  intros logs seeds b Kqz Gqz Ksh Gsh phi_c Cn Kc Gc Db Kb scheme vsh Dsh Dqz Dc phi vp out I N E. unfold QI_estimate_cem in E.
  set (row := fun s : fl * fl => call! vs := oseq (fun i => QI_cal_v_const Dqz Kqz Gqz Dsh Ksh Gsh Dc Kc Gc Db Kb (phi_c - i) phi_c vsh (fst s) scheme) seeds in Ret (map fst vs)) in E.
  destruct (oseq row logs) as [rows| |] eqn:R; try discriminate. cbn [call] in E.
  assert (P : exists r, In (vp, r) (combine (map snd logs) rows) /\ row (phi, vp) = Ret r).
  { clear E. revert rows R. induction logs as [|s logs IH]; intros rows R; [destruct I|]. cbn [oseq] in R.
    destruct (row s) as [r| |] eqn:F; try discriminate. cbn [call] in R. destruct (oseq row logs) as [rs| |]; try discriminate. injection R as <-.
    destruct I as [->|I].
    - exists r. split; [left; reflexivity|exact F].
    - destruct (IH I rs eq_refl) as (r' & H & F'). exists r'. split; [right; exact H|exact F']. }
  destruct P as (r & Ir & F). destruct (oseq_in _ _ _ _ _ E _ Ir) as (v & V). cbn [fst snd] in V. revert V. apply cem_nan.
  destruct N as [->| ->]; [right|left; exact Logic.I].
  unfold row in F. cbn [fst] in F. clear - F. revert r F. induction seeds as [|i seeds IH]; cbn [oseq call]; intros r F.
  - injection F as <-. intros ? [].
  - destruct (QI_cal_v_const _ _ _ _ _ _ _ _ _ _ _ (phi_c - i) _ _ _ _) as [[p q]| |] eqn:Q; try discriminate. cbn [call] in F.
    destruct (oseq _ seeds) as [vs| |]; try discriminate. cbn [call] in *. injection F as <-. cbn [map]. intros x [<-|X].
    + cbn [fst]. unfold QI_cal_v_const in Q. destruct (QI_mineral _ _ _ _ _ _ _) as [[[k g] d]| |]; try discriminate. cbn [call] in Q.
      destruct (Emp_Cp phi_c); try discriminate. cbn [call] in Q. destruct (GM_constantcement _ _ _ _ _ _ _ _ _ _) as [[kd gd]| |]; try discriminate. cbn [call] in Q.
      destruct (Fluid_vels _ _ _ _ _ _ _ _) as [[[va vc] ve]| |] eqn:W; try discriminate. cbn [call] in Q. injection Q as <- <-.
      apply vels_nan in W as [-> _]. exact I.
    + exact (IH _ eq_refl x X).
Qed.
Print Assumptions C89_estimate_cem_refuted.

(** ** Functions with masks in which a gap shows *)
Theorem C89_ramm_segment : forall Z out i, Emp_ramm_porosity_segment Z = Ret out -> nth i Z Und = NaN -> nth i out Und = NaN.
Proof.
  induction Z as [|z Z IH]; cbn [Emp_ramm_porosity_segment]; intros out i E H; [destruct i; discriminate|].
  destruct (Emp_ramm_segment_elem z) as [p| |] eqn:P; try discriminate. cbn [call] in E.
  destruct (Emp_ramm_porosity_segment Z) as [r| |]; try discriminate. injection E as <-. destruct i as [|i]; cbn [nth] in *; [|eapply IH; eauto].
  subst z. cbn in P. congruence.
Qed.
Print Assumptions C89_ramm_segment.
Theorem C89_cst_vels : forall m phi_b K0 D0 G0 phi_c Cn Kc Gc Db Kb scheme vsh Dsh Dqz Dc vp vs,
  QI_cst_vels m phi_b K0 D0 G0 NaN phi_c Cn Kc Gc Db Kb scheme vsh Dsh Dqz Dc = Ret (vp, vs) -> vp = NaN /\ vs = NaN.
Proof.
  intros m phi_b K0 D0 G0 phi_c Cn Kc Gc Db Kb scheme vsh Dsh Dqz Dc vp vs E. unfold QI_cst_vels in E.
  destruct (GM_constantcement _ _ _ _ _ _ _ _ _ _) as [[kd gd]| |]; try discriminate. cbn [call] in E.
  destruct (QI_den_matrix _ _ _ _ _ _ _); try discriminate. cbn [call] in E.
  destruct (Fluid_vels _ _ _ _ _ _ _ _) as [[[va vc] ve]| |] eqn:W; try discriminate. cbn [call] in E. apply vels_nan in W as [-> ->].
  unfold mask_gt in E. destruct (fltb phi_b NaN) as [[|]|]; try discriminate; cbn [call] in E; injection E as <- <-; auto.
Qed.
Print Assumptions C89_cst_vels.

(** ** The hypotheses are met *)
(** Two samples, the second bulk modulus missing: the P velocity is missing there and nowhere else, the S velocity is a number. *)
Example C89_nonvacuous_arrays : exists a b,
  args_ok 2 [VA [#37; NaN]; VS #44; VS #(265/100)] /\ elem 1 (VA [#37; NaN]) = NaN /\
  run_arr NumPy arr_utils_V [VA [#37; NaN]; VS #44; VS #(265/100)] = Ret [VA [Fin a; NaN]; VS (Fin b)].
Proof.
  do 2 eexists. split; [|split; [reflexivity|]].
  - intros v [<-|[<-|[<-|[]]]]; (split; [cbn; auto|]); cbn; auto. intros x [<-|[<-|[]]]; exact I.
  - unfold arr_utils_V. cbn -[Rdiv]. repeat (destruct (Req_EM_T _ _); [exfalso; lra|cbn -[Rdiv]]).
    repeat (destruct (Rle_dec _ _); [cbn -[Rdiv]|exfalso; lra]). reflexivity.
Qed.
Example C89_nonvacuous_programs : In (3%nat, arr_utils_V) programs /\ run NumPy arr_utils_V [NaN; #44; #1] = Ret [NaN; Fin (sqrt (44 / 1) * 1000)].
Proof.
  split; [left; reflexivity|]. unfold arr_utils_V. cbn -[Rdiv]. destruct (Req_EM_T _ _); [exfalso; lra|]. cbn -[Rdiv].
  destruct (Rle_dec _ _); [reflexivity|exfalso; lra].
Qed.
Lemma fpown_no_exc x n : no_exc x -> no_exc (x ^^ n).
Proof. destruct x, n; cbn; tauto. Qed.
Lemma fsub_no_exc x y : no_exc x -> no_exc y -> no_exc (x - y).
Proof. destruct x, y; cbn; tauto. Qed.
Lemma fpow_no_exc x y : no_exc x -> no_exc y -> no_exc (fpow NumPy x y).
Proof.
  destruct x as [a| | | |], y as [b| | | |]; cbn; try tauto; repeat destruct (Req_EM_T _ _); repeat destruct (Rlt_dec _ _); cbn; tauto.
Qed.
Lemma sem1_no_exc o x : no_exc x -> no_exc (sem1 o x).
Proof.
  destruct o as [| | | | | | | | | | | |[|n]], x; cbn; try tauto; repeat destruct (Req_EM_T _ _); repeat destruct (Rlt_dec _ _); repeat destruct (Rle_dec _ _); cbn; tauto.
Qed.
Ltac noexc :=
  repeat first
    [ apply fmul_no_exc | apply fadd_no_exc | apply fsub_no_exc | apply fdivn_no_exc | apply fpow_no_exc | apply fpown_no_exc
    | match goal with
      | |- no_exc (fsin _) => apply (sem1_no_exc OSin) | |- no_exc (fcos _) => apply (sem1_no_exc OCos) | |- no_exc (ftan _) => apply (sem1_no_exc OTan)
      | |- no_exc (fsqrt _) => apply (sem1_no_exc OSqrt) | |- no_exc (farcsin _) => apply (sem1_no_exc OArcsin)
      | |- no_exc (fneg _) => apply (sem1_no_exc ONeg) | |- no_exc (fdeg2rad _) => apply (sem1_no_exc ODeg2rad)
      | |- no_exc (Fin _) => exact I | |- no_exc NaN => exact I | |- no_exc _ => assumption end ].
Lemma EI_sample_returns ipn isn Vp0 Vs0 Vp Vs rho theta SP : no_exc ipn -> no_exc isn -> no_exc Vp0 -> no_exc Vs0 -> no_exc Vp -> no_exc Vs ->
  no_exc rho -> no_exc theta -> no_exc SP -> exists r, AVO_EI_sample NumPy ipn isn Vp0 Vs0 Vp Vs rho theta SP = Ret r.
Proof.
  intros. unfold AVO_EI_sample.
  repeat (match goal with |- exists r, bind ?x _ = _ => let H := fresh "N" in assert (H : no_exc x) by noexc; rewrite (bind_ok _ x) by exact H; cbv beta; generalize dependent x; intros end).
  eauto.
Qed.
Example C89_nonvacuous_EI : exists r1 r2,
  AVO_EI_ref NumPy [(NaN, #2, #2); (#3, #2, #2)] #10 #(1/2) true = Ret [r1; r2] /\ EI_pp r2 = NaN.
Proof.
  assert (X : exists r1 r2, AVO_EI_ref NumPy [(NaN, #2, #2); (#3, #2, #2)] #10 #(1/2) true = Ret [r1; r2]).
  { unfold AVO_EI_ref. cbv zeta.
    assert (M1 : no_exc (np_mean (map (fun s : fl * fl * fl => fst (fst s)) [(NaN, #2, #2); (#3, #2, #2)]))) by (unfold np_mean; cbn [fsum map fst snd]; noexc).
    assert (M2 : no_exc (np_mean (map (fun s : fl * fl * fl => snd (fst s)) [(NaN, #2, #2); (#3, #2, #2)]))) by (unfold np_mean; cbn [fsum map fst snd]; noexc).
    assert (M3 : no_exc (np_mean (map (@snd (fl * fl) fl) [(NaN, #2, #2); (#3, #2, #2)]))) by (unfold np_mean; cbn [fsum map fst snd]; noexc).
    revert M1 M2 M3. generalize (np_mean (map (fun s : fl * fl * fl => fst (fst s)) [(NaN, #2, #2); (#3, #2, #2)])) (np_mean (map (fun s : fl * fl * fl => snd (fst s)) [(NaN, #2, #2); (#3, #2, #2)])) (np_mean (map (@snd (fl * fl) fl) [(NaN, #2, #2); (#3, #2, #2)])).
    intros a b c A B C. cbn [omap]. cbv iota beta.
    destruct (EI_sample_returns (a * c) (b * c) NaN #2 (NaN /n a) (#2 /n b) (#2 /n c) #10 #(1/2)) as [r1 ->]; [noexc..|].
    destruct (EI_sample_returns (a * c) (b * c) #3 #2 (#3 /n a) (#2 /n b) (#2 /n c) #10 #(1/2)) as [r2 ->]; [noexc..|].
    exists r1, r2. reflexivity. }
  destruct X as (r1 & r2 & X). exists r1, r2. split; [exact X|].
  refine (proj1 (C89_EI_normalised_refuted NumPy [(NaN, #2, #2); (#3, #2, #2)] _ _ #2 #2 _ (or_introl eq_refl) _ X r2 (or_intror (or_introl eq_refl)))).
  intros a b c [[= <- <- <-]|[[= <- <- <-]|[]]]; cbn; auto.
Qed.
Example C89_nonvacuous_lists : clean [#(1/3); NaN; #(1/3)] /\ In NaN [#(1/3); NaN; #(1/3)].
Proof. split; [intros x [<-|[<-|[<-|[]]]]; exact I|right; left; reflexivity]. Qed.
Example C89_nonvacuous_masks : Emp_ramm_porosity_segment [NaN] = Ret [NaN].
Proof. reflexivity. Qed.
