(** * L_Cont: limits of the values of Fl.v, and continuity of the operations where they return numbers. *)
From Coquelicot Require Import Coquelicot.
From Verif Require Import Fl RealLemmas.
Open Scope R_scope.

(** ** Real functions *)
Definition cont1 (g : R -> R) (a : R) : Prop := forall eps, 0 < eps -> exists d, 0 < d /\ forall x, Rabs (x - a) < d -> Rabs (g x - g a) < eps.
(** Continuity on a set, at a point of it. *)
Definition cont1on (P : R -> Prop) (g : R -> R) (a : R) : Prop := forall eps, 0 < eps -> exists d, 0 < d /\ forall x, P x -> Rabs (x - a) < d -> Rabs (g x - g a) < eps.
Definition cont2 (g : R -> R -> R) (a b : R) : Prop :=
  forall eps, 0 < eps -> exists d, 0 < d /\ forall x y, Rabs (x - a) < d -> Rabs (y - b) < d -> Rabs (g x y - g a b) < eps.
Lemma cont1_pt g a : continuity_pt g a -> cont1 g a.
Proof.
  intros H eps He. destruct (H eps He) as (d & Hd & P). exists d. split; [exact Hd|]. intros x Hx.
  destruct (Req_dec x a) as [->|N]; [rewrite Rminus_eq_0, Rabs_R0; exact He|].
  apply P. split; [split; [exact I|intros E; apply N; symmetry; exact E]|exact Hx].
Qed.
Lemma cont2_pt g a b : continuity_2d_pt g a b -> cont2 g a b.
Proof. intros H eps He. destruct (H (mkposreal eps He)) as (d & P). exists d. split; [apply cond_pos|]. exact P. Qed.
Lemma cont1_on P g a : cont1 g a -> cont1on P g a.
Proof. intros H eps He. destruct (H eps He) as (d & Hd & Q). exists d. auto. Qed.
Lemma cont_plus a b : cont2 Rplus a b.
Proof. apply cont2_pt. apply (continuity_2d_pt_plus (fun x _ => x) (fun _ y => y)); [apply continuity_2d_pt_id1|apply continuity_2d_pt_id2]. Qed.
Lemma cont_minus a b : cont2 Rminus a b.
Proof. apply cont2_pt. apply (continuity_2d_pt_minus (fun x _ => x) (fun _ y => y)); [apply continuity_2d_pt_id1|apply continuity_2d_pt_id2]. Qed.
Lemma cont_mult a b : cont2 Rmult a b.
Proof. apply cont2_pt. apply (continuity_2d_pt_mult (fun x _ => x) (fun _ y => y)); [apply continuity_2d_pt_id1|apply continuity_2d_pt_id2]. Qed.
Lemma cont_div a b : b <> 0 -> cont2 Rdiv a b.
Proof.
  intros N. apply cont2_pt. apply (continuity_2d_pt_mult (fun x _ => x) (fun _ y => / y)); [apply continuity_2d_pt_id1|].
  apply (continuity_2d_pt_inv (fun _ y => y)); [apply continuity_2d_pt_id2|exact N].
Qed.
Lemma cont_Rmax a b : cont2 Rmax a b.
Proof.
  intros eps He. exists eps. split; [exact He|]. intros x y Hx Hy. apply Rabs_def2 in Hx, Hy. apply Rabs_def1; unfold Rmax; destruct (Rle_dec x y), (Rle_dec a b); lra.
Qed.
Lemma cont_Rpower a b : 0 < a -> cont2 Rpower a b.
Proof.
  intros P. apply cont2_pt. unfold Rpower. apply (continuity_1d_2d_pt_comp exp (fun x y => y * ln x)).
  - apply derivable_continuous_pt, derivable_pt_exp.
  - apply (continuity_2d_pt_mult (fun _ y => y) (fun x _ => ln x)); [apply continuity_2d_pt_id2|].
    apply (continuity_1d_2d_pt_comp ln (fun x _ => x)); [|apply continuity_2d_pt_id1]. apply derivable_continuous_pt. exists (/ a). apply derivable_pt_lim_ln, P.
Qed.
Lemma cont_pow n a : cont1 (fun x => x ^ n) a.
Proof. apply cont1_pt. apply derivable_continuous_pt, derivable_pt_pow. Qed.
Lemma cont_sqrt a : 0 <= a -> cont1 sqrt a.
Proof. intros H. apply cont1_pt. apply continuity_pt_sqrt, H. Qed.
Lemma cont_ln a : 0 < a -> cont1 ln a.
Proof. intros H. apply cont1_pt. apply derivable_continuous_pt. exists (/ a). apply derivable_pt_lim_ln, H. Qed.
Lemma cont_tan a : cos a <> 0 -> cont1 tan a.
Proof. intros H. apply cont1_pt. unfold tan. apply continuity_pt_div; [apply continuity_sin|apply continuity_cos|exact H]. Qed.
Lemma cont_cosh a : cont1 cosh a.
Proof. apply cont1_pt. apply derivable_continuous_pt, derivable_cosh. Qed.
Lemma cont_atan a : cont1 atan a.
Proof. apply cont1_pt. apply derivable_continuous_pt, derivable_pt_atan. Qed.
(** arcsin, ends of its interval included *)
Lemma asin_lt x y : -1 <= x -> x < y -> y <= 1 -> asin x < asin y.
Proof.
  intros H1 H2 H3. destruct (Rlt_le_dec (asin x) (asin y)) as [L|L]; [exact L|exfalso].
  assert (A := asin_bound x). assert (B := asin_bound y).
  assert (E : sin (asin y) <= sin (asin x)) by (apply sin_incr_1; lra). rewrite !sin_asin in E by lra. lra.
Qed.
Lemma cont_asin a : -1 <= a <= 1 -> cont1on (fun x => -1 <= x <= 1) asin a.
Proof.
  intros Ha eps He. assert (B := asin_bound a).
  assert (U : exists d, 0 < d /\ forall x, -1 <= x <= 1 -> x < a + d -> asin x < asin a + eps).
  { destruct (Rle_lt_dec (PI / 2) (asin a + eps / 2)) as [L|L].
    - exists 1. split; [lra|]. intros x Hx _. assert (C := asin_bound x). lra.
    - assert (Q : sin (asin a) < sin (asin a + eps / 2)) by (apply sin_increasing_1; lra). rewrite sin_asin in Q by lra.
      exists (sin (asin a + eps / 2) - a). split; [lra|]. intros x Hx H.
      assert (sin (asin a + eps/2) <= 1) by apply SIN_bound.
      assert (X : asin x < asin (sin (asin a + eps / 2))) by (apply asin_lt; lra). rewrite asin_sin in X by lra. lra. }
  assert (L : exists d, 0 < d /\ forall x, -1 <= x <= 1 -> a - d < x -> asin a - eps < asin x).
  { destruct (Rle_lt_dec (asin a - eps / 2) (- (PI / 2))) as [L|L].
    - exists 1. split; [lra|]. intros x Hx _. assert (C := asin_bound x). lra.
    - assert (Q : sin (asin a - eps / 2) < sin (asin a)) by (apply sin_increasing_1; lra). rewrite sin_asin in Q by lra.
      exists (a - sin (asin a - eps / 2)). split; [lra|]. intros x Hx H.
      assert (-1 <= sin (asin a - eps/2)) by apply SIN_bound.
      assert (X : asin (sin (asin a - eps / 2)) < asin x) by (apply asin_lt; lra). rewrite asin_sin in X by lra. lra. }
  destruct U as (d1 & D1 & U), L as (d2 & D2 & L). exists (Rmin d1 d2). split; [apply Rmin_pos; auto|]. intros x Hx H.
  assert (M1 := Rmin_l d1 d2). assert (M2 := Rmin_r d1 d2). apply Rabs_def2 in H. apply Rabs_def1.
  - assert (X := U x Hx ltac:(lra)). lra.
  - assert (X := L x Hx ltac:(lra)). lra.
Qed.
Lemma cont_acos a : -1 <= a <= 1 -> cont1on (fun x => -1 <= x <= 1) acos a.
Proof.
  intros Ha eps He. destruct (cont_asin a Ha eps He) as (d & Hd & P). exists d. split; [exact Hd|]. intros x Hx H.
  rewrite !acos_asin by lra. replace (PI / 2 - asin x - (PI / 2 - asin a)) with (- (asin x - asin a)) by ring. rewrite Rabs_Ropp. apply P; auto.
Qed.
(** Integer powers of a nonzero number *)
Lemma cont_powerRZ k a : a <> 0 -> cont1 (fun x => powerRZ x k) a.
Proof.
  intros N. destruct k as [|p|p]; cbn [powerRZ].
  - intros eps He. exists 1. split; [lra|]. intros. rewrite Rminus_eq_0, Rabs_R0. exact He.
  - apply cont_pow.
  - apply cont1_pt. apply (continuity_pt_inv (fun x => x ^ Pos.to_nat p)); [apply derivable_continuous_pt, derivable_pt_pow|].
    apply pow_nonzero, N.
Qed.
Lemma powerRZ_abs a k : a <> 0 -> Rabs (powerRZ a k) = Rpower (Rabs a) (IZR k).
Proof.
  intros N. assert (P : 0 < Rabs a) by (apply Rabs_pos_lt, N). rewrite <- powerRZ_Rpower by exact P.
  destruct k as [|p|p]; cbn [powerRZ].
  - apply Rabs_R1.
  - apply eq_sym, RPow_abs.
  - rewrite Rabs_inv. f_equal. apply eq_sym, RPow_abs.
Qed.
(** Powers of a small number *)
Lemma Rpower_le_small x y z : 0 < x < 1 -> z <= y -> Rpower x y <= Rpower x z.
Proof.
  intros Hx H. unfold Rpower. assert (L : ln x < 0) by (rewrite <- ln_1; apply ln_increasing; lra).
  destruct (Req_dec z y) as [->|N]; [lra|]. left. apply exp_increasing. nra.
Qed.
Lemma small_pow b eps : 0 < b -> 0 < eps -> exists d, 0 < d <= 1 /\ forall x y, 0 < x < d -> b / 2 < y -> Rpower x y < eps.
Proof.
  intros Hb He. exists (Rmin 1 (Rpower eps (2 / b))). assert (0 < Rpower eps (2 / b)) by apply exp_pos.
  split; [split; [apply Rmin_pos; lra|apply Rmin_l]|]. intros x y Hx Hy.
  assert (M1 := Rmin_l 1 (Rpower eps (2 / b))). assert (M2 := Rmin_r 1 (Rpower eps (2 / b))).
  apply Rle_lt_trans with (Rpower x (b / 2)); [apply Rpower_le_small; lra|].
  replace eps with (Rpower (Rpower eps (2 / b)) (b / 2)).
  - apply Rlt_Rpower_l; lra.
  - rewrite Rpower_mult. replace (2 / b * (b / 2)) with 1 by (field; lra). apply Rpower_1, He.
Qed.
Lemma big_pow b M : b < 0 -> 0 < M -> exists d, 0 < d <= 1 /\ forall x y, 0 < x < d -> y < b / 2 -> M < Rpower x y.
Proof.
  intros Hb HM. destruct (small_pow (- b) (/ M) ltac:(lra) ltac:(apply Rinv_0_lt_compat, HM)) as (d & Hd & P). exists d. split; [exact Hd|].
  intros x y Hx Hy. assert (X := P x (- y) Hx ltac:(lra)). rewrite Rpower_Ropp in X.
  rewrite <- (Rinv_inv M), <- (Rinv_inv (Rpower x y)). apply Rinv_lt_contravar; [|exact X].
  apply Rmult_lt_0_compat; apply Rinv_0_lt_compat; [apply exp_pos|exact HM].
Qed.

(** ** Limits of values *)
Definition bad (x : fl) : Prop := match x with NaN | Und | Exc _ => True | _ => False end.
Section Lim.
Variables (T : Type) (F : (T -> Prop) -> Prop).
Hypotheses (F_true : F (fun _ => True)) (F_and : forall P Q : T -> Prop, F P -> F Q -> F (fun t => P t /\ Q t))
  (F_imp : forall P Q : T -> Prop, (forall t, P t -> Q t) -> F P -> F Q).
Definition near_fin (eps r : R) (y : fl) : Prop := bad y \/ exists s, y = Fin s /\ Rabs (s - r) < eps.
Definition near_inf (M : R) (y : fl) : Prop := bad y \/ y = Inf \/ exists s, y = Fin s /\ M < Rabs s.
Definition tends (f : T -> fl) (x : fl) : Prop :=
  match x with
  | Fin r => forall eps, 0 < eps -> F (fun t => near_fin eps r (f t))
  | Inf => forall M, 0 < M -> F (fun t => near_inf M (f t))
  | _ => True
  end.
Lemma tends_bad f x : bad x -> tends f x.
Proof. destruct x; cbn; tauto. Qed.
Lemma tends_const x : tends (fun _ => x) x.
Proof.
  destruct x; cbn; auto.
  - intros eps He. apply F_imp with (2 := F_true). intros _ _. right. exists r. rewrite Rminus_eq_0, Rabs_R0. auto.
  - intros M HM. apply F_imp with (2 := F_true). intros _ _. right. left. reflexivity.
Qed.
Lemma tends_ext f g x : (forall t, f t = g t \/ bad (g t)) -> tends f x -> tends g x.
Proof.
  intros H. destruct x; cbn; auto; intros P eps He; apply F_imp with (2 := P eps He); intros t [B|B]; destruct (H t) as [E|E]; unfold near_fin, near_inf; try rewrite <- E; auto.
Qed.
(** Operations of one argument *)
Lemma tends_cont (op : fl -> fl) P (g : R -> R) r f : (forall x, bad x -> bad (op x)) ->
  (exists d, 0 < d /\ forall s, Rabs (s - r) < d -> bad (op (Fin s)) \/ (op (Fin s) = Fin (g s) /\ P s)) -> cont1on P g r ->
  tends f (Fin r) -> tends (fun t => op (f t)) (Fin (g r)).
Proof.
  intros HB (d0 & D0 & HO) HC HF eps He. destruct (HC eps He) as (d & Hd & Hg).
  apply F_imp with (2 := HF (Rmin d0 d) ltac:(apply Rmin_pos; auto)).
  assert (M1 := Rmin_l d0 d). assert (M2 := Rmin_r d0 d).
  intros t [B|(s & E & H)]; [left; auto|]. rewrite E. destruct (HO s ltac:(lra)) as [B|(O & PS)]; [left; auto|].
  right. exists (g s). split; auto. apply Hg; auto. lra.
Qed.
Lemma tends_cont_all (op : fl -> fl) (g : R -> R) r f : (forall x, bad x -> bad (op x)) -> (forall s, op (Fin s) = Fin (g s)) -> cont1 g r ->
  tends f (Fin r) -> tends (fun t => op (f t)) (op (Fin r)).
Proof.
  intros HB HO HC HF. rewrite HO. apply (tends_cont op (fun _ => True)); auto; [|apply cont1_on, HC].
  exists 1. split; [lra|]. intros s _. right. auto.
Qed.
Lemma tends_neg f x : tends f x -> tends (fun t => fneg (f t)) (fneg x).
Proof.
  destruct x; cbn [fneg]; auto; intros H.
  - apply (tends_cont_all fneg Ropp); auto; [intros []; cbn; tauto|]. apply cont1_pt. apply continuity_pt_opp, continuity_pt_id.
  - intros M HM. apply F_imp with (2 := H M HM). intros t [B|[E|(s & E & L)]].
    + left. destruct (f t); cbn in *; auto.
    + rewrite E. right; left; reflexivity.
    + rewrite E. right; right. exists (- s). rewrite Rabs_Ropp. auto.
Qed.
Lemma tends_deg2rad f x : tends f x -> tends (fun t => fdeg2rad (f t)) (fdeg2rad x).
Proof.
  destruct x; cbn [fdeg2rad]; auto; intros H.
  - apply (tends_cont_all fdeg2rad (fun a => a * PI / 180)); auto; [intros []; cbn; tauto|]. apply cont1_pt. reg.
  - assert (P := PI_RGT_0). intros M HM. apply F_imp with (2 := H (M * 180 / PI) ltac:(apply Rdiv_lt_0_compat; lra)). intros t [B|[E|(s & E & L)]].
    + left. destruct (f t); cbn in *; auto.
    + rewrite E. right; left; reflexivity.
    + rewrite E. right; right. exists (s * PI / 180). split; auto. unfold Rdiv. rewrite !Rabs_mult, (Rabs_right PI), (Rabs_right (/ 180)) by lra.
      apply Rmult_lt_reg_r with (180 / PI); [apply Rdiv_lt_0_compat; lra|]. replace (Rabs s * PI * / 180 * (180 / PI)) with (Rabs s) by (field; lra). lra.
Qed.
Lemma tends_exp f x : tends f x -> tends (fun t => fexp (f t)) (fexp x).
Proof. destruct x; try (intros _; exact I); cbn [fexp]; intros H. apply (tends_cont_all fexp exp); auto; [intros []; cbn; tauto|]. apply cont1_pt, derivable_continuous_pt, derivable_pt_exp. Qed.
Lemma tends_sin f x : tends f x -> tends (fun t => fsin (f t)) (fsin x).
Proof. destruct x; try (intros _; exact I); cbn [fsin]; intros H. apply (tends_cont_all fsin sin); auto; [intros []; cbn; tauto|]. apply cont1_pt, continuity_sin. Qed.
Lemma tends_cos f x : tends f x -> tends (fun t => fcos (f t)) (fcos x).
Proof. destruct x; try (intros _; exact I); cbn [fcos]; intros H. apply (tends_cont_all fcos cos); auto; [intros []; cbn; tauto|]. apply cont1_pt, continuity_cos. Qed.
Lemma tends_cosh f x : tends f x -> tends (fun t => fcosh (f t)) (fcosh x).
Proof. destruct x; try (intros _; exact I); cbn [fcosh]; intros H. apply (tends_cont_all fcosh cosh); auto; [intros []; cbn; tauto|]. apply cont_cosh. Qed.
Lemma tends_arctan f x : tends f x -> tends (fun t => farctan (f t)) (farctan x).
Proof. destruct x; try (intros _; exact I); cbn [farctan]; intros H. apply (tends_cont_all farctan atan); auto; [intros []; cbn; tauto|]. apply cont_atan. Qed.
Lemma tends_sqrt f x : tends f x -> tends (fun t => fsqrt (f t)) (fsqrt x).
Proof.
  destruct x; try (intros _; exact I); cbn [fsqrt]; intros H. destruct (Rle_dec 0 r) as [P|P]; [|exact I].
  apply (tends_cont fsqrt (fun s => 0 <= s)); auto; [intros []; cbn; tauto| |apply cont1_on, cont_sqrt, P].
  exists 1. split; [lra|]. intros s _. cbn. destruct (Rle_dec 0 s); cbn; auto.
Qed.
Lemma tends_tan f x : tends f x -> tends (fun t => ftan (f t)) (ftan x).
Proof.
  destruct x; try (intros _; exact I); cbn [ftan]; intros H. destruct (Req_EM_T (cos r) 0) as [E|N]; [exact I|].
  apply (tends_cont ftan (fun _ => True)); auto; [intros []; cbn; tauto| |apply cont1_on, cont_tan, N].
  exists 1. split; [lra|]. intros s _. cbn. destruct (Req_EM_T (cos s) 0); cbn; auto.
Qed.
Lemma tends_arcsin f x : tends f x -> tends (fun t => farcsin (f t)) (farcsin x).
Proof.
  destruct x; try (intros _; exact I); cbn [farcsin]; intros H. destruct (Rle_dec (-1) r) as [P|P]; [|exact I]. destruct (Rle_dec r 1) as [Q|Q]; [|exact I].
  apply (tends_cont farcsin (fun s => -1 <= s <= 1)); auto; [intros []; cbn; tauto| |apply cont_asin; lra].
  exists 1. split; [lra|]. intros s _. cbn. destruct (Rle_dec (-1) s); cbn; auto. destruct (Rle_dec s 1); cbn; auto.
Qed.
Lemma tends_arccos f x : tends f x -> tends (fun t => farccos (f t)) (farccos x).
Proof.
  destruct x; try (intros _; exact I); cbn [farccos]; intros H. destruct (Rle_dec (-1) r) as [P|P]; [|exact I]. destruct (Rle_dec r 1) as [Q|Q]; [|exact I].
  apply (tends_cont farccos (fun s => -1 <= s <= 1)); auto; [intros []; cbn; tauto| |apply cont_acos; lra].
  exists 1. split; [lra|]. intros s _. cbn. destruct (Rle_dec (-1) s); cbn; auto. destruct (Rle_dec s 1); cbn; auto.
Qed.
Lemma ln_big M : 0 < M -> exists d, 0 < d /\ forall s, 0 < s < d -> M < Rabs (ln s).
Proof.
  intros HM. exists (exp (- M)). split; [apply exp_pos|]. intros s Hs. assert (L : ln s < - M) by (rewrite <- (ln_exp (- M)); apply ln_increasing; lra).
  rewrite Rabs_left; lra.
Qed.
Lemma tends_log f x : tends f x -> tends (fun t => flog (f t)) (flog x).
Proof.
  destruct x; try (intros _; exact I); cbn [flog]; intros H. destruct (Rlt_dec 0 r) as [P|P].
  - apply (tends_cont flog (fun _ => True)); auto; [intros []; cbn; tauto| |apply cont1_on, cont_ln, P].
    exists r. split; [lra|]. intros s L. apply Rabs_def2 in L. cbn. destruct (Rlt_dec 0 s); cbn; auto. lra.
  - destruct (Req_EM_T r 0) as [->|N]; [|exact I]. intros M HM. destruct (ln_big M HM) as (d & Hd & B).
    apply F_imp with (2 := H d Hd). intros t [X|(s & E & L)]; [left; destruct (f t); cbn in X |- *; tauto|]. rewrite E. cbn.
    rewrite Rminus_0_r in L. destruct (Rlt_dec 0 s) as [Ps|Ps].
    + right. right. exists (ln s). split; auto. apply B. rewrite Rabs_right in L; lra.
    + destruct (Req_EM_T s 0); [right; left; reflexivity|left; exact I].
Qed.
Lemma tends_pown n f x : tends f x -> tends (fun t => fpown (f t) n) (fpown x n).
Proof.
  destruct n as [|n].
  - intros H. destruct x; cbn [fpown]; auto.
    + intros eps He. apply F_imp with (2 := H 1 ltac:(lra)). intros t [B|(s & E & L)].
      * destruct (f t); cbn in *; try tauto; [right; exists 1; split; auto; cbn; rewrite Rminus_eq_0, Rabs_R0; auto| |left; exact I].
        right; exists 1; split; auto; cbn; rewrite Rminus_eq_0, Rabs_R0; auto.
      * rewrite E. cbn. right. exists 1. rewrite Rminus_eq_0, Rabs_R0. auto.
    + intros eps He. apply F_imp with (2 := F_true). intros t _. unfold near_fin. destruct (f t); cbn; auto;
      right; exists 1; rewrite Rminus_eq_0, Rabs_R0; auto.
    + intros eps He. apply F_imp with (2 := F_true). intros t _. unfold near_fin. destruct (f t); cbn; auto;
      right; exists 1; rewrite Rminus_eq_0, Rabs_R0; auto.
    + intros eps He. apply F_imp with (2 := F_true). intros t _. unfold near_fin. destruct (f t); cbn; auto;
      right; exists 1; rewrite Rminus_eq_0, Rabs_R0; auto.
  - destruct x; cbn [fpown]; try exact (fun _ => I); intros H.
    + apply (tends_cont_all (fun x => fpown x (S n)) (fun x => x ^ S n)); auto; [intros []; cbn; tauto|apply cont_pow].
    + intros M HM. apply F_imp with (2 := H (Rmax 1 M) ltac:(apply Rlt_le_trans with 1; [lra|apply Rmax_l])). intros t [B|[E|(s & E & L)]].
      * left. destruct (f t); cbn in *; auto.
      * rewrite E. right; left; reflexivity.
      * rewrite E. right; right. exists (s ^ S n). split; auto. rewrite <- RPow_abs.
        assert (M1 := Rmax_l 1 M). assert (M2 := Rmax_r 1 M). assert (1 <= Rabs s ^ n) by (apply pow_R1_Rle; lra).
        cbn [pow]. apply Rlt_le_trans with (Rabs s * 1); [lra|]. apply Rmult_le_compat_l; [apply Rabs_pos|assumption].
Qed.
(** Operations of two arguments *)
Lemma tends_cont2 (op : fl -> fl -> fl) (g : R -> R -> R) a b f h :
  (forall x y, bad x -> bad (op x y)) -> (forall x y, bad y -> bad (op x y)) ->
  (exists d, 0 < d /\ forall x y, Rabs (x - a) < d -> Rabs (y - b) < d -> op (Fin x) (Fin y) = Fin (g x y)) -> cont2 g a b ->
  tends f (Fin a) -> tends h (Fin b) -> tends (fun t => op (f t) (h t)) (Fin (g a b)).
Proof.
  intros B1 B2 (d0 & D0 & HO) HC Hf Hh eps He. destruct (HC eps He) as (d & Hd & Hg).
  assert (M1 := Rmin_l d0 d). assert (M2 := Rmin_r d0 d). assert (MP : 0 < Rmin d0 d) by (apply Rmin_pos; auto).
  apply F_imp with (2 := F_and _ _ (Hf _ MP) (Hh _ MP)). intros t [[X|(x & E1 & X)] [Y|(y & E2 & Y)]]; try (left; auto; fail).
  rewrite E1, E2. right. exists (g x y). split; [apply HO; lra|apply Hg; lra].
Qed.
Lemma abs_far_plus s r M e : Rabs (s - r) < e -> forall x, M + Rabs r + e < Rabs x -> M < Rabs (x + s).
Proof.
  intros H x Hx. assert (A : Rabs x <= Rabs (x + s) + Rabs s) by (replace x with ((x + s) + - s) at 1 by ring; eapply Rle_trans; [apply Rabs_triang|rewrite Rabs_Ropp; lra]).
  assert (B : Rabs s <= Rabs (s - r) + Rabs r) by (replace s with ((s - r) + r) at 1 by ring; apply Rabs_triang). lra.
Qed.
Lemma tends_add f h x y : tends f x -> tends h y -> tends (fun t => fadd (f t) (h t)) (fadd x y).
Proof.
  assert (B1 : forall x y, bad x -> bad (fadd x y)) by (intros [] []; cbn; tauto).
  assert (B2 : forall x y, bad y -> bad (fadd x y)) by (intros [] []; cbn; tauto).
  intros Hf Hh. destruct x, y; try (apply tends_bad; cbn; exact I).
  - cbn [fadd]. apply tends_cont2; auto; [exists 1; split; [lra|reflexivity]|apply cont_plus].
  - cbn [fadd]. intros M HM. assert (P := Rabs_pos r).
    apply F_imp with (2 := F_and _ _ (Hf 1 ltac:(lra)) (Hh (M + Rabs r + 1) ltac:(lra))). intros t [[X|(s & E & L)] [Y|[Y|(z & E' & L')]]]; try (left; auto; fail).
    + rewrite E, Y. right; left; reflexivity.
    + rewrite E, E'. right; right. exists (s + z). split; auto. rewrite Rplus_comm. eapply abs_far_plus; eauto.
  - cbn [fadd]. intros M HM. assert (P := Rabs_pos r).
    apply F_imp with (2 := F_and _ _ (Hf (M + Rabs r + 1) ltac:(lra)) (Hh 1 ltac:(lra))). intros t [[X|[X|(z & E' & L')]] [Y|(s & E & L)]]; try (left; auto; fail).
    + rewrite E, X. right; left; reflexivity.
    + rewrite E, E'. right; right. exists (z + s). split; auto. eapply abs_far_plus; eauto.
Qed.
Lemma fsub_add x y : fsub x y = fadd x (fneg y).
Proof. destruct x, y; reflexivity. Qed.
Lemma tends_sub f h x y : tends f x -> tends h y -> tends (fun t => fsub (f t) (h t)) (fsub x y).
Proof.
  intros Hf Hh. rewrite fsub_add. apply tends_ext with (fun t => fadd (f t) (fneg (h t))); [intros; left; symmetry; apply fsub_add|].
  apply tends_add; [exact Hf|apply tends_neg, Hh].
Qed.
Lemma tends_max f h x y : tends f x -> tends h y -> tends (fun t => fmaximum (f t) (h t)) (fmaximum x y).
Proof.
  assert (B1 : forall x y, bad x -> bad (fmaximum x y)) by (intros [] []; cbn; tauto).
  assert (B2 : forall x y, bad y -> bad (fmaximum x y)) by (intros [] []; cbn; tauto).
  intros Hf Hh. destruct x, y; try (apply tends_bad; cbn; exact I).
  cbn [fmaximum]. apply tends_cont2; auto; [exists 1; split; [lra|reflexivity]|apply cont_Rmax].
Qed.
Lemma away_zero s r : r <> 0 -> Rabs (s - r) < Rabs r / 2 -> Rabs r / 2 < Rabs s.
Proof.
  intros N H. assert (A : Rabs r <= Rabs (s - r) + Rabs s). { replace r with (- (s - r) + s) at 1 by ring. eapply Rle_trans; [apply Rabs_triang|]. rewrite Rabs_Ropp. lra. } lra.
Qed.

Lemma tends_mul f h x y : tends f x -> tends h y -> tends (fun t => fmul (f t) (h t)) (fmul x y).
Proof.
  assert (B1 : forall x y, bad x -> bad (fmul x y)) by (intros [] []; cbn; tauto).
  assert (B2 : forall x y, bad y -> bad (fmul x y)) by (intros [] []; cbn; tauto).
  assert (C : forall x y, fmul x y = fmul y x \/ bad (fmul y x)) by (intros [] []; cbn; try (left; reflexivity); try (right; exact I); left; f_equal; ring).
  assert (IF : forall f h r, tends f Inf -> tends h (Fin r) -> tends (fun t => fmul (f t) (h t)) (fmul Inf (Fin r))).
  { intros f0 h0 r Hf Hh. cbn [fmul]. destruct (Req_EM_T r 0) as [E|N]; [exact I|]. intros M HM. assert (P : 0 < Rabs r) by (apply Rabs_pos_lt, N).
    assert (Q : 0 < M / (Rabs r / 2)) by (apply Rdiv_lt_0_compat; lra).
    apply F_imp with (2 := F_and _ _ (Hf _ Q) (Hh (Rabs r / 2) ltac:(lra))). intros t [[X|[X|(z & E & X)]] [Y|(s & E' & Y)]]; try (left; auto; fail).
    - apply away_zero in Y; [|exact N]. rewrite X, E'. cbn. destruct (Req_EM_T s 0); [left; exact I|right; left; reflexivity].
    - apply away_zero in Y; [|exact N]. rewrite E, E'. right; right. exists (z * s). split; auto. rewrite Rabs_mult.
      apply Rle_lt_trans with (M / (Rabs r / 2) * (Rabs r / 2)); [right; field; lra|]. apply Rmult_le_0_lt_compat; lra. }
  intros Hf Hh. destruct x, y; try (apply tends_bad; cbn; exact I).
  - cbn [fmul]. apply tends_cont2; auto; [exists 1; split; [lra|reflexivity]|apply cont_mult].
  - replace (fmul (Fin r) Inf) with (fmul Inf (Fin r)) by reflexivity. apply tends_ext with (fun t => fmul (h t) (f t)); [intros; apply C|]. apply IF; auto.
  - apply IF; auto.
  - cbn [fmul]. intros M HM. assert (Q : 0 < Rmax 1 M) by (apply Rlt_le_trans with 1; [lra|apply Rmax_l]).
    assert (M1 := Rmax_l 1 M). assert (M2 := Rmax_r 1 M).
    apply F_imp with (2 := F_and _ _ (Hf _ Q) (Hh _ Q)). intros t [[X|[X|(z & E & X)]] [Y|[Y|(s & E' & Y)]]]; try (left; auto; fail).
    + rewrite X, Y. right; left; reflexivity.
    + rewrite X, E'. cbn. destruct (Req_EM_T s 0); [left; exact I|right; left; reflexivity].
    + rewrite E, Y. cbn. destruct (Req_EM_T z 0); [left; exact I|right; left; reflexivity].
    + rewrite E, E'. right; right. exists (z * s). split; auto. rewrite Rabs_mult. nra.
Qed.
Lemma bad_div m x y : bad x -> bad (fdiv m x y).
Proof. destruct x, y; cbn; try tauto; destruct (Req_EM_T _ _), m; cbn; tauto. Qed.
Lemma bad_div2 m x y : bad y -> bad (fdiv m x y).
Proof. destruct x, y; cbn; tauto. Qed.
Lemma tends_div m f h x y : tends f x -> tends h y -> tends (fun t => fdiv m (f t) (h t)) (fdiv m x y).
Proof.
  assert (B1 := bad_div m). assert (B2 := bad_div2 m).
  intros Hf Hh. destruct y as [b| | | |]; try (apply tends_bad; destruct x; cbn; exact I).
  - destruct x as [a| | | |]; try (apply tends_bad, bad_div; exact I).
    + (* number / number *) cbn [fdiv]. destruct (Req_EM_T b 0) as [->|N].
      * destruct m; [exact I|]. destruct (Req_EM_T a 0) as [->|N]; [exact I|]. intros M HM. assert (P : 0 < Rabs a) by (apply Rabs_pos_lt, N).
        apply F_imp with (2 := F_and _ _ (Hf (Rabs a / 2) ltac:(lra)) (Hh (Rabs a / 2 / M) ltac:(apply Rdiv_lt_0_compat; lra))).
        intros t [[X|(u & E & X)] [Y|(v & E' & Y)]]; try (left; auto; fail). apply away_zero in X; [|exact N]. rewrite E, E'. cbn. rewrite Rminus_0_r in Y.
        destruct (Req_EM_T v 0) as [V|V].
        -- destruct (Req_EM_T u 0); [left; exact I|right; left; reflexivity].
        -- right; right. exists (u / v). split; auto. rewrite Rabs_div by exact V. assert (W : 0 < Rabs v) by (apply Rabs_pos_lt, V).
           apply lt_div_iff; [exact W|]. apply Rlt_trans with (Rabs a / 2); [|exact X]. apply lt_div_iff in Y; [lra|exact HM].
      * apply tends_cont2; auto; [|apply cont_div, N]. exists (Rabs b). split; [apply Rabs_pos_lt, N|]. intros u v _ V. apply fdiv_fin. intros ->.
        replace (0 - b) with (- b) in V by ring. rewrite Rabs_Ropp in V. lra.
    + (* inf / number *) cbn [fdiv]. destruct (Req_EM_T b 0) as [->|N].
      * destruct m; [exact I|]. intros M HM. apply F_imp with (2 := F_and _ _ (Hf M HM) (Hh 1 ltac:(lra))).
        intros t [[X|[X|(u & E & X)]] [Y|(v & E' & Y)]]; try (left; auto; fail).
        -- rewrite X, E'. cbn. destruct (Req_EM_T v 0); right; left; reflexivity.
        -- rewrite E, E'. rewrite Rminus_0_r in Y. cbn. destruct (Req_EM_T v 0) as [V|V]; [destruct (Req_EM_T u 0); [left; exact I|right; left; reflexivity]|].
           right; right. exists (u / v). split; auto. rewrite Rabs_div by exact V. assert (W : 0 < Rabs v) by (apply Rabs_pos_lt, V).
           apply lt_div_iff; [exact W|]. nra.
      * intros M HM. assert (P : 0 < Rabs b) by (apply Rabs_pos_lt, N).
        apply F_imp with (2 := F_and _ _ (Hf (M * (2 * Rabs b)) ltac:(apply Rmult_lt_0_compat; lra)) (Hh (Rabs b / 2) ltac:(lra))).
        intros t [[X|[X|(u & E & X)]] [Y|(v & E' & Y)]]; try (left; auto; fail).
        -- apply away_zero in Y; [|exact N]. rewrite X, E'. cbn. destruct (Req_EM_T v 0); [destruct m; [left; exact I|right; left; reflexivity]|right; left; reflexivity].
        -- assert (Z := Y). apply away_zero in Z; [|exact N]. assert (V : v <> 0) by (intros ->; rewrite Rabs_R0 in Z; lra). rewrite E, E', fdiv_fin by exact V.
           right; right. exists (u / v). split; auto. rewrite Rabs_div by exact V. assert (W : 0 < Rabs v) by (apply Rabs_pos_lt, V).
           assert (U : Rabs v <= Rabs (v - b) + Rabs b) by (replace v with (v - b + b) at 1 by ring; apply Rabs_triang).
           apply lt_div_iff; [exact W|]. apply Rle_lt_trans with (2 := X). apply Rmult_le_compat_l; lra.
  - (* number / inf *) destruct x as [a| | | |]; try (apply tends_bad; cbn; exact I). cbn [fdiv]. intros eps He. assert (P := Rabs_pos a).
    apply F_imp with (2 := F_and _ _ (Hf 1 ltac:(lra)) (Hh ((Rabs a + 1) / eps) ltac:(apply Rdiv_lt_0_compat; lra))).
    intros t [[X|(u & E & X)] [Y|[Y|(v & E' & Y)]]]; try (left; auto; fail).
    + rewrite E, Y. right. exists 0. rewrite Rminus_eq_0, Rabs_R0. auto.
    + assert (W : 0 < Rabs v). { apply Rlt_trans with (2 := Y). apply Rdiv_lt_0_compat; lra. }
      assert (V : v <> 0) by (intros ->; rewrite Rabs_R0 in W; lra). rewrite E, E', fdiv_fin by exact V. right. exists (u / v). split; auto.
      rewrite Rminus_0_r, Rabs_div by exact V. apply div_lt_iff; [exact W|]. apply div_lt_iff in Y; [|exact He].
      assert (U : Rabs u <= Rabs (u - a) + Rabs a) by (replace u with (u - a + a) at 1 by ring; apply Rabs_triang). lra.
Qed.
(** A power, away from 0 to the power 0 *)
Lemma tends_pow m f h a b : (a <> 0 \/ b <> 0) -> tends f (Fin a) -> tends h (Fin b) -> tends (fun t => fpow m (f t) (h t)) (fpow m (Fin a) (Fin b)).
Proof.
  intros R0 Hf Hh.
  assert (Core : forall eps, 0 < eps -> forall Q : fl -> Prop, (forall y, bad y -> Q y) ->
     (forall x y, Rabs (x - a) < eps -> Rabs (y - b) < eps -> Q (fpow m (Fin x) (Fin y))) ->
     (Rabs b < eps -> Q (Fin 1)) -> (Rabs (1 - a) < eps -> Q (Fin 1)) -> F (fun t => Q (fpow m (f t) (h t)))).
  { intros eps He Q Q1 Q2 Q3 Q4. apply F_imp with (2 := F_and _ _ (Hf eps He) (Hh eps He)). intros t [[X|(x & E & X)] [Y|(y & E' & Y)]].
    - apply Q1. destruct (f t), (h t); cbn in *; tauto.
    - rewrite E'. destruct (f t); cbn in X; try tauto; cbn; [|apply Q1; exact I..]. destruct (Req_EM_T y 0) as [->|N]; [|apply Q1; exact I].
      apply Q3. replace b with (- (0 - b)) by ring. rewrite Rabs_Ropp. exact Y.
    - rewrite E. destruct (h t); cbn in Y; try tauto; cbn; [|apply Q1; exact I..]. destruct (Req_EM_T x 1) as [->|N]; [|apply Q1; exact I]. apply Q4; exact X.
    - rewrite E, E'. apply Q2; auto. }
  assert (AS : forall z w : R, Rabs (z - w) = Rabs (w - z)) by (intros; apply Rabs_minus_sym).
  destruct (Rlt_dec 0 a) as [Pa|Pa]; [|destruct (Req_EM_T a 0) as [->|Na]].
  - (* positive base *) rewrite fpow_fin by exact Pa. intros eps He. destruct (cont_Rpower a b Pa eps He) as (d & Hd & C).
    set (e1 := if Req_EM_T b 0 then 1 else Rabs b). set (e2 := if Req_EM_T a 1 then 1 else Rabs (1 - a)).
    assert (P1 : 0 < e1) by (unfold e1; destruct (Req_EM_T b 0); [lra|apply Rabs_pos_lt; auto]).
    assert (P2 : 0 < e2) by (unfold e2; destruct (Req_EM_T a 1); [lra|apply Rabs_pos_lt; lra]).
    set (e := Rmin (Rmin d a) (Rmin e1 e2)).
    assert (L : e <= d /\ e <= a /\ e <= e1 /\ e <= e2).
    { assert (Q1 := Rmin_l (Rmin d a) (Rmin e1 e2)). assert (Q2 := Rmin_r (Rmin d a) (Rmin e1 e2)). fold e in Q1, Q2.
      assert (Q3 := Rmin_l d a). assert (Q4 := Rmin_r d a). assert (Q5 := Rmin_l e1 e2). assert (Q6 := Rmin_r e1 e2). lra. }
    apply (Core e ltac:(repeat apply Rmin_pos; auto) (near_fin eps (Rpower a b))).
    + intros; left; auto.
    + intros x y X Y. assert (Z : 0 < x) by (apply Rabs_def2 in X; lra). rewrite fpow_fin by exact Z. right. exists (Rpower x y). split; auto. apply C; lra.
    + intros X. unfold e1 in L. destruct (Req_EM_T b 0) as [->|]; [|lra]. right. exists 1. rewrite Rpower_O, Rminus_eq_0, Rabs_R0 by exact Pa. auto.
    + intros X. unfold e2 in L. destruct (Req_EM_T a 1) as [->|]; [|lra]. right. exists 1. unfold Rpower. rewrite ln_1, Rmult_0_r, exp_0, Rminus_eq_0, Rabs_R0. auto.
  - (* base zero *) assert (Nb : b <> 0) by (destruct R0; congruence). destruct (Rlt_dec 0 b) as [Pb|Pb].
    + rewrite fpow_zero by exact Pb. intros eps He. destruct (small_pow b eps Pb He) as (d & (Hd & Hd1) & C).
      assert (Q3 := Rmin_l d (b / 2)). assert (Q4 := Rmin_r d (b / 2)).
      apply (Core (Rmin d (b / 2)) ltac:(apply Rmin_pos; lra) (near_fin eps 0)).
      * intros; left; auto.
      * intros x y X Y. rewrite Rminus_0_r in X. apply Rabs_def2 in Y. cbn. destruct (Rlt_dec 0 x) as [Px|Px].
        -- right. exists (Rpower x y). split; auto. rewrite Rminus_0_r, Rabs_right by (left; apply exp_pos). rewrite Rabs_right in X by lra. apply C; lra.
        -- destruct (Req_EM_T x 0) as [->|Nx].
           ++ destruct (Req_EM_T y 0); [lra|]. destruct (Rlt_dec 0 y); [|lra]. right. exists 0. rewrite Rminus_eq_0, Rabs_R0. auto.
           ++ destruct (Req_EM_T y (IZR (Int_part y))) as [Ey|]; [|left; destruct m; exact I]. right. exists (powerRZ x (Int_part y)). split; auto.
              rewrite Rminus_0_r, powerRZ_abs, <- Ey by exact Nx. apply C; [split; [apply Rabs_pos_lt, Nx|lra]|lra].
      * intros X. rewrite Rabs_right in X by lra. lra.
      * intros X. rewrite Rminus_0_r, Rabs_R1 in X. lra.
    + assert (E : fpow m (Fin 0) (Fin b) = match m with PyFloat => Exc ZeroDivisionError | NumPy => Inf end).
      { cbn. destruct (Rlt_dec 0 0); [lra|]. destruct (Req_EM_T 0 0); [|lra]. destruct (Req_EM_T b 0); [lra|]. destruct (Rlt_dec 0 b); [lra|reflexivity]. }
      rewrite E. destruct m; [exact I|]. intros M HM. destruct (big_pow b M ltac:(lra) HM) as (d & (Hd & Hd1) & C).
      assert (Q3 := Rmin_l d (- b / 2)). assert (Q4 := Rmin_r d (- b / 2)).
      apply (Core (Rmin d (- b / 2)) ltac:(apply Rmin_pos; lra) (near_inf M)).
      * intros; left; auto.
      * intros x y X Y. rewrite Rminus_0_r in X. apply Rabs_def2 in Y. cbn. destruct (Rlt_dec 0 x) as [Px|Px].
        -- right; right. exists (Rpower x y). split; auto. rewrite Rabs_right by (left; apply exp_pos). rewrite Rabs_right in X by lra. apply C; lra.
        -- destruct (Req_EM_T x 0) as [->|Nx].
           ++ destruct (Req_EM_T y 0); [lra|]. destruct (Rlt_dec 0 y); [lra|]. right; left; reflexivity.
           ++ destruct (Req_EM_T y (IZR (Int_part y))) as [Ey|]; [|left; exact I]. right; right. exists (powerRZ x (Int_part y)). split; auto.
              rewrite powerRZ_abs, <- Ey by exact Nx. apply C; [split; [apply Rabs_pos_lt, Nx|lra]|lra].
      * intros X. rewrite Rabs_left in X by lra. lra.
      * intros X. rewrite Rminus_0_r, Rabs_R1 in X. lra.
  - (* negative base *) assert (E : fpow m (Fin a) (Fin b) = if Req_EM_T b (IZR (Int_part b)) then Fin (powerRZ a (Int_part b)) else match m with PyFloat => Und | NumPy => NaN end).
    { cbn. destruct (Rlt_dec 0 a); [lra|]. destruct (Req_EM_T a 0); [lra|reflexivity]. }
    rewrite E. destruct (Req_EM_T b (IZR (Int_part b))) as [Eb|]; [|destruct m; exact I]. set (k := Int_part b) in *.
    intros eps He. destruct (cont_powerRZ k a ltac:(lra) eps He) as (d & Hd & C).
    assert (Q1 := Rmin_l d (Rmin (- a) 1)). assert (Q2 := Rmin_r d (Rmin (- a) 1)). assert (Q3 := Rmin_l (- a) 1). assert (Q4 := Rmin_r (- a) 1).
    apply (Core (Rmin d (Rmin (- a) 1)) ltac:(repeat apply Rmin_pos; lra) (near_fin eps (powerRZ a k))).
    + intros; left; auto.
    + intros x y X Y. assert (Hx : x < 0) by (apply Rabs_def2 in X; lra). cbn. destruct (Rlt_dec 0 x); [lra|]. destruct (Req_EM_T x 0); [lra|].
      destruct (Req_EM_T y (IZR (Int_part y))) as [Ey|]; [|left; destruct m; exact I].
      assert (K : Int_part y = k). { rewrite Ey, Eb in Y. rewrite <- minus_IZR, <- abs_IZR in Y. assert (Z : IZR (Z.abs (Int_part y - k)) < IZR 1) by lra. apply lt_IZR in Z. lia. }
      rewrite K. right. exists (powerRZ x k). split; auto. apply C. lra.
    + intros X. assert (K : k = 0%Z). { rewrite Eb, <- abs_IZR in X. assert (Z : IZR (Z.abs k) < IZR 1) by lra. apply lt_IZR in Z. lia. }
      rewrite K. right. exists 1. cbn [powerRZ]. rewrite Rminus_eq_0, Rabs_R0. auto.
    + intros X. rewrite Rabs_right in X; lra.
Qed.
(** A power with a fixed nonzero exponent *)
Lemma tends_pow_const m f x b : b <> 0 -> tends f x -> tends (fun t => fpow m (f t) (Fin b)) (fpow m x (Fin b)).
Proof.
  intros N H. destruct x; try (apply tends_bad; cbn; try destruct (Req_EM_T b 0); try exact I; congruence).
  apply tends_pow; auto. apply tends_const.
Qed.

(** ** The operations give numbers nearby when they give a number (or an infinity) at the limit *)
Definition ok (f : T -> fl) : Prop := F (fun t => ~ bad (f t)).
Lemma ok_const x : ~ bad x -> ok (fun _ => x).
Proof. intros H. apply F_imp with (2 := F_true). auto. Qed.
Lemma ok_fin f r eps : 0 < eps -> tends f (Fin r) -> ok f -> F (fun t => exists s, f t = Fin s /\ Rabs (s - r) < eps).
Proof. intros He H K. apply F_imp with (2 := F_and _ _ (H eps He) K). intros t [[X|X] N]; [contradiction|exact X]. Qed.
Lemma ok_inf f : tends f Inf -> ok f -> F (fun t => f t = Inf \/ exists s, f t = Fin s /\ s <> 0).
Proof.
  intros H K. apply F_imp with (2 := F_and _ _ (H 1 ltac:(lra)) K). intros t [[X|[X|(s & E & X)]] N]; [contradiction|auto|].
  right. exists s. split; auto. intros ->. rewrite Rabs_R0 in X. lra.
Qed.
Lemma ok_nz f r : r <> 0 -> tends f (Fin r) -> ok f -> F (fun t => exists s, f t = Fin s /\ s <> 0).
Proof.
  intros N H K. assert (P : 0 < Rabs r) by (apply Rabs_pos_lt, N). apply F_imp with (2 := ok_fin f r (Rabs r / 2) ltac:(lra) H K).
  intros t (s & E & X). exists s. split; auto. apply away_zero in X; auto. intros ->. rewrite Rabs_R0 in X. lra.
Qed.
(** An operation of one argument that keeps numbers near [r]. *)
Lemma ok_op1 (op : fl -> fl) r f d : 0 < d -> (forall s, Rabs (s - r) < d -> ~ bad (op (Fin s))) -> tends f (Fin r) -> ok f -> ok (fun t => op (f t)).
Proof. intros D H L K. apply F_imp with (2 := ok_fin f r d D L K). intros t (s & E & X). rewrite E. auto. Qed.
Lemma ok_pos r f (op : fl -> fl) : 0 < r -> (forall s, 0 < s -> ~ bad (op (Fin s))) -> tends f (Fin r) -> ok f -> ok (fun t => op (f t)).
Proof. intros P H. apply ok_op1 with r; auto. intros s X. apply H. apply Rabs_def2 in X. lra. Qed.
Lemma ok_add f h x y : ~ bad (fadd x y) -> tends f x -> tends h y -> ok f -> ok h -> ok (fun t => fadd (f t) (h t)).
Proof.
  intros N Hf Hh Kf Kh. destruct x as [a| | | |], y as [b| | | |]; try (exfalso; apply N; exact I).
  - apply F_imp with (2 := F_and _ _ (ok_fin f a 1 ltac:(lra) Hf Kf) (ok_fin h b 1 ltac:(lra) Hh Kh)). intros t [(u & -> & _) (v & -> & _)]. cbn; auto.
  - apply F_imp with (2 := F_and _ _ (ok_fin f a 1 ltac:(lra) Hf Kf) (ok_inf h Hh Kh)). intros t [(u & -> & _) [->|(v & -> & _)]]; cbn; auto.
  - apply F_imp with (2 := F_and _ _ (ok_inf f Hf Kf) (ok_fin h b 1 ltac:(lra) Hh Kh)). intros t [[->|(v & -> & _)] (u & -> & _)]; cbn; auto.
Qed.
Lemma ok_neg f : ok f -> ok (fun t => fneg (f t)).
Proof. apply F_imp. intros t. destruct (f t); cbn; auto. Qed.
Lemma ok_sub f h x y : ~ bad (fsub x y) -> tends f x -> tends h y -> ok f -> ok h -> ok (fun t => fsub (f t) (h t)).
Proof.
  intros N Hf Hh Kf Kh. rewrite fsub_add in N. assert (X := ok_add f (fun t => fneg (h t)) x (fneg y) N Hf (tends_neg _ _ Hh) Kf (ok_neg _ Kh)).
  apply F_imp with (2 := X). intros t. rewrite fsub_add. auto.
Qed.
Ltac nz0 := repeat match goal with |- context [Req_EM_T ?a ?b] => destruct (Req_EM_T a b) end; cbn; try tauto; try lra.
Lemma ok_mul f h x y : ~ bad (fmul x y) -> tends f x -> tends h y -> ok f -> ok h -> ok (fun t => fmul (f t) (h t)).
Proof.
  intros N Hf Hh Kf Kh. destruct x as [a| | | |], y as [b| | | |]; try (exfalso; apply N; exact I).
  - apply F_imp with (2 := F_and _ _ (ok_fin f a 1 ltac:(lra) Hf Kf) (ok_fin h b 1 ltac:(lra) Hh Kh)). intros t [(u & -> & _) (v & -> & _)]. cbn; auto.
  - cbn in N. destruct (Req_EM_T a 0) as [|A]; [exfalso; apply N; exact I|].
    apply F_imp with (2 := F_and _ _ (ok_nz f a A Hf Kf) (ok_inf h Hh Kh)). intros t [(u & -> & U) [->|(v & -> & V)]]; cbn; nz0.
  - cbn in N. destruct (Req_EM_T b 0) as [|A]; [exfalso; apply N; exact I|].
    apply F_imp with (2 := F_and _ _ (ok_inf f Hf Kf) (ok_nz h b A Hh Kh)). intros t [[->|(u & -> & U)] (v & -> & V)]; cbn; nz0.
  - apply F_imp with (2 := F_and _ _ (ok_inf f Hf Kf) (ok_inf h Hh Kh)). intros t [[->|(u & -> & U)] [->|(v & -> & V)]]; cbn; nz0.
Qed.
Lemma ok_div m f h x y : ~ bad (fdiv m x y) -> tends f x -> tends h y -> ok f -> ok h -> ok (fun t => fdiv m (f t) (h t)).
Proof.
  intros N Hf Hh Kf Kh. destruct y as [b| | | |]; try (exfalso; apply N; destruct x; exact I).
  - destruct x as [a| | | |]; try (exfalso; apply N, bad_div; exact I).
    + cbn [fdiv] in N. destruct (Req_EM_T b 0) as [->|B].
      * destruct m; [exfalso; apply N; exact I|]. destruct (Req_EM_T a 0) as [|A]; [exfalso; apply N; exact I|].
        apply F_imp with (2 := F_and _ _ (ok_nz f a A Hf Kf) (ok_fin h 0 1 ltac:(lra) Hh Kh)). intros t [(u & -> & U) (v & -> & _)]. cbn; nz0.
      * apply F_imp with (2 := F_and _ _ (ok_fin f a 1 ltac:(lra) Hf Kf) (ok_nz h b B Hh Kh)). intros t [(u & -> & _) (v & -> & V)]. cbn; nz0.
    + cbn [fdiv] in N. destruct (Req_EM_T b 0) as [->|B].
      * destruct m; [exfalso; apply N; exact I|].
        apply F_imp with (2 := F_and _ _ (ok_inf f Hf Kf) (ok_fin h 0 1 ltac:(lra) Hh Kh)). intros t [[->|(u & -> & U)] (v & -> & _)]; cbn; nz0.
      * apply F_imp with (2 := F_and _ _ (ok_inf f Hf Kf) (ok_nz h b B Hh Kh)). intros t [[->|(u & -> & U)] (v & -> & V)]; cbn; nz0.
  - destruct x as [a| | | |]; try (exfalso; apply N; exact I).
    apply F_imp with (2 := F_and _ _ (ok_fin f a 1 ltac:(lra) Hf Kf) (ok_inf h Hh Kh)). intros t [(u & -> & _) [->|(v & -> & V)]]; cbn; nz0.
Qed.
Lemma ok_max f h x y : ~ bad (fmaximum x y) -> tends f x -> tends h y -> ok f -> ok h -> ok (fun t => fmaximum (f t) (h t)).
Proof.
  intros N Hf Hh Kf Kh. destruct x as [a| | | |], y as [b| | | |]; try (exfalso; apply N; exact I).
  apply F_imp with (2 := F_and _ _ (ok_fin f a 1 ltac:(lra) Hf Kf) (ok_fin h b 1 ltac:(lra) Hh Kh)). intros t [(u & -> & _) (v & -> & _)]. cbn; auto.
Qed.
Lemma ok_pown n f : n <> O -> ok f -> ok (fun t => fpown (f t) n).
Proof. intros N. apply F_imp. intros t. destruct n; [congruence|]. destruct (f t); cbn; auto. Qed.
Lemma ok_deg2rad f : ok f -> ok (fun t => fdeg2rad (f t)).
Proof. apply F_imp. intros t. destruct (f t); cbn; auto. Qed.
Lemma ok_tan f x : ~ bad (ftan x) -> tends f x -> ok f -> ok (fun t => ftan (f t)).
Proof.
  intros N Hf Kf. destruct x as [a| | | |]; try (exfalso; apply N; exact I). cbn in N. destruct (Req_EM_T (cos a) 0) as [|A]; [exfalso; apply N; exact I|].
  assert (X := tends_cos _ _ Hf). assert (Kc : ok (fun t => fcos (f t))) by (apply (ok_op1 fcos a f 1); [lra|cbn; auto|exact Hf|exact Kf]).
  apply F_imp with (2 := F_and _ _ (ok_nz _ _ A X Kc) (ok_fin f a 1 ltac:(lra) Hf Kf)). intros t [(c & E & C) (u & E' & _)]. rewrite E' in *. cbn in E |- *. nz0. congruence.
Qed.
End Lim.
