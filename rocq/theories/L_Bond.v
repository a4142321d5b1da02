(** * At which angles [Bond_trans] is a rotation. *)
From Verif Require Import Fl M_Utils M_Anis Spec L_Utils L_Anis L_Fluid1.
Open Scope R_scope.

Lemma quarter_cases t : sin (2 * t) = 0 -> (cos t = 1 /\ sin t = 0) \/ (cos t = -1 /\ sin t = 0) \/ (cos t = 0 /\ sin t = 1) \/ (cos t = 0 /\ sin t = -1).
Proof.
  intros H. rewrite sin_2a in H. assert (E := sin2_cos2 t). unfold Rsqr in E.
  destruct (Rmult_integral _ _ H) as [H1|H1]; [assert (H0 : sin t = 0) by lra | ].
  - rewrite H0 in *. destruct (Rmult_integral (cos t - 1) (cos t + 1)) as [X|X]; [lra|left|right; left]; split; lra.
  - rewrite H1 in *. destruct (Rmult_integral (sin t - 1) (sin t + 1)) as [X|X]; [lra|right; right; left|right; right; right]; split; lra.
Qed.
(** A 6x6 matrix represents [Q] on pairs of axes. *)
Definition represents (Q : nat -> nat -> R) (M : rmat) := forall i j, (i < 3)%nat -> (j < 3)%nat -> forall g : nat -> R,
  sum3 (fun p => sum3 (fun q => Q i p * Q j q * g (vgt p q))) = sum6 (fun a => M (vgt i j) a * g a).
Lemma sum3_ext f g : (forall k, f k = g k) -> sum3 f = sum3 g.
Proof. intros H. unfold sum3. rewrite !H. reflexivity. Qed.
Lemma represents_rotates Q M C : represents Q M -> rotates_to Q C (mmul (mmul M C) (transp M)).
Proof.
  intros H i j k l Hi Hj Hk Hl. unfold rotated, tensor.
  transitivity (sum3 (fun p => sum3 (fun q => Q i p * Q j q * sum6 (fun b => M (vgt k l) b * C (vgt p q) b)))).
  - apply sum3_ext. intros p. apply sum3_ext. intros q. rewrite <- (H k l Hk Hl (fun b => C (vgt p q) b)). unfold sum3. ring.
  - rewrite (H i j Hi Hj (fun a => sum6 (fun b => M (vgt k l) b * C a b))). unfold mmul, transp, sum6. ring.
Qed.
Ltac rep i j g := fin3 i; fin3 j; unfold bondM, sum3, sum6, rows, ofrows; cbn [vgt nth]; ring.
Lemma Bond_represents t : sin (2 * t) = 0 -> represents (rot3 (- t)) (bond_axis 3 t) /\ represents (rot1 t) (bond_axis 1 t).
Proof.
  intros H. unfold bond_axis. cbn [Z.eqb Pos.eqb]. unfold rot3, rot1. rewrite cos_neg, sin_neg.
  destruct (quarter_cases t H) as [(-> & ->)|[(-> & ->)|[(-> & ->)|(-> & ->)]]]; split; intros i j Hi Hj g; rep i j g.
Qed.
Lemma cs_zero t : (cos t * sin t)^2 = 4 * (cos t * sin t)^2 -> sin (2 * t) = 0.
Proof. intros H. rewrite sin_2a. assert (X : cos t * sin t = 0) by (apply Rsqr_0_uniq; unfold Rsqr; lra). lra. Qed.
Definition unit_at (k : nat) : rmat := fun i j => if Nat.eqb i k then (if Nat.eqb j k then 1 else 0) else 0.
Lemma Bond_rotation_iff th axis Q : (axis = 3%Z /\ Q = rot3 (- rad th)) \/ (axis = 1%Z /\ Q = rot1 (rad th)) ->
  ((forall C, exists C', Anis_Bond_trans (finmat C) (Fin th) axis = Ret (finmat C') /\ rotates_to Q C C') <-> sin (2 * rad th) = 0).
Proof.
  intros HA. set (t := rad th) in *. split.
  - intros H. apply cs_zero. destruct HA as [(-> & ->)|(-> & ->)].
    + destruct (H (unit_at 5)) as (C' & E & R). rewrite Bond_eval in E by auto. apply (f_equal (fun o => match o with Ret x => x | _ => finmat C' end)) in E. cbv beta iota in E. apply finmat_inj6 in E. fold t in E.
      specialize (E 0%nat 0%nat ltac:(lia) ltac:(lia)). specialize (R 0%nat 0%nat 0%nat 0%nat ltac:(lia) ltac:(lia) ltac:(lia) ltac:(lia)).
      unfold tensor at 1 in R. cbn [vgt] in R. rewrite <- E in R.
      unfold rotated, tensor, rot3, bond_axis, mmul, transp, bondM, sum3, sum6, rows, ofrows, unit_at in R. cbn [Z.eqb Pos.eqb vgt nth Nat.eqb] in R. rewrite cos_neg, sin_neg in R.
      clearbody t. clear -R. set (c := cos t) in *. set (s := sin t) in *. clearbody c s. ring_simplify in R. ring_simplify. lra.
    + destruct (H (unit_at 3)) as (C' & E & R). rewrite Bond_eval in E by auto. apply (f_equal (fun o => match o with Ret x => x | _ => finmat C' end)) in E. cbv beta iota in E. apply finmat_inj6 in E. fold t in E.
      specialize (E 1%nat 1%nat ltac:(lia) ltac:(lia)). specialize (R 1%nat 1%nat 1%nat 1%nat ltac:(lia) ltac:(lia) ltac:(lia) ltac:(lia)).
      unfold tensor at 1 in R. cbn [vgt] in R. rewrite <- E in R.
      unfold rotated, tensor, rot1, bond_axis, mmul, transp, bondM, sum3, sum6, rows, ofrows, unit_at in R. cbn [Z.eqb Pos.eqb vgt nth Nat.eqb] in R.
      clearbody t. clear -R. set (c := cos t) in *. set (s := sin t) in *. clearbody c s. ring_simplify in R. ring_simplify. lra.
  - intros H C. destruct (Bond_represents t H) as (R3 & R1).
    destruct HA as [(-> & ->)|(-> & ->)]; eexists; (split; [apply Bond_eval; auto|]); apply represents_rotates; assumption.
Qed.
(** The matrix used by the code, on pairs of axes: a normal component ([i = j]) counts each mixed pair of axes
    ([p <> q]) once instead of twice. *)
Definition half_rep (Q : nat -> nat -> R) (M : rmat) := forall i j, (i < 3)%nat -> (j < 3)%nat -> forall g : nat -> R,
  sum3 (fun p => sum3 (fun q => bond_weight i j p q * (Q i p * Q j q) * g (vgt p q))) = sum6 (fun a => M (vgt i j) a * g a).
Lemma half_rotates Q M C : half_rep Q M -> forall i j k l, (i < 3)%nat -> (j < 3)%nat -> (k < 3)%nat -> (l < 3)%nat ->
  sum3 (fun p => sum3 (fun q => sum3 (fun r => sum3 (fun s =>
    bond_weight i j p q * bond_weight k l r s * (Q i p * Q j q * Q k r * Q l s * tensor C p q r s)))))
  = tensor (mmul (mmul M C) (transp M)) i j k l.
Proof.
  intros H i j k l Hi Hj Hk Hl. unfold tensor.
  transitivity (sum3 (fun p => sum3 (fun q => bond_weight i j p q * (Q i p * Q j q) * sum6 (fun b => M (vgt k l) b * C (vgt p q) b)))).
  - apply sum3_ext. intros p. apply sum3_ext. intros q. rewrite <- (H k l Hk Hl (fun b => C (vgt p q) b)). unfold sum3. ring.
  - rewrite (H i j Hi Hj (fun a => sum6 (fun b => M (vgt k l) b * C a b))). unfold mmul, transp, sum6. ring.
Qed.
Lemma Bond_half t : half_rep (rot3 (- t)) (bond_axis 3 t) /\ half_rep (rot1 t) (bond_axis 1 t).
Proof.
  unfold bond_axis. cbn [Z.eqb Pos.eqb]. unfold rot3, rot1. rewrite cos_neg, sin_neg.
  split; intros i j Hi Hj g; fin3 i; fin3 j; unfold bond_weight, bondM, sum3, sum6, rows, ofrows; cbn [vgt nth Nat.eqb negb andb]; field.
Qed.
Lemma Bond_formula C th : exists C3 C1,
  Anis_Bond_trans (finmat C) (Fin th) 3 = Ret (finmat C3) /\ Anis_Bond_trans (finmat C) (Fin th) 1 = Ret (finmat C1) /\
  forall i j k l, (i < 3)%nat -> (j < 3)%nat -> (k < 3)%nat -> (l < 3)%nat ->
  tensor C3 i j k l = sum3 (fun p => sum3 (fun q => sum3 (fun r => sum3 (fun s => let Q := rot3 (- rad th) in
    bond_weight i j p q * bond_weight k l r s * (Q i p * Q j q * Q k r * Q l s * tensor C p q r s))))) /\
  tensor C1 i j k l = sum3 (fun p => sum3 (fun q => sum3 (fun r => sum3 (fun s => let Q := rot1 (rad th) in
    bond_weight i j p q * bond_weight k l r s * (Q i p * Q j q * Q k r * Q l s * tensor C p q r s))))).
Proof.
  destruct (Bond_half (rad th)) as (H3 & H1).
  do 2 eexists. split; [apply Bond_eval; auto|]. split; [apply Bond_eval; auto|].
  intros i j k l Hi Hj Hk Hl. split; symmetry; apply half_rotates; assumption.
Qed.
