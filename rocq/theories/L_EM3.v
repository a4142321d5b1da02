(** * Hudson's models, continued: errors, random, orthogonal and cone orientations. *)
From Coquelicot Require Import Coquelicot.
From Verif Require Import Fl M_Utils M_EM Spec RealLemmas L_Utils L_EM2.
Open Scope R_scope.

Section H.
Variables (m : mode) (K G Ki Gi al crd : R).
Hypothesis Hh : host K G Ki Gi al.
Let lam := K - 2/3 * G.
Let U1 := penny_U1 lam G Gi al.
Let U3 := penny_U3 lam G Ki Gi al.

Lemma hudson_swap order : (order = 1 \/ order = 2)%Z ->
  exists C3 C1,
    EM_hudson m (Fin K) (Fin G) (Fin Ki) (Fin Gi) (Fin al) (Fin crd) order 3 = Ret (finmat C3) /\
    EM_hudson m (Fin K) (Fin G) (Fin Ki) (Fin Gi) (Fin al) (Fin crd) order 1 = Ret (finmat C1) /\
    transversely_isotropic 2 C3 /\ transversely_isotropic 0 C1 /\ rotates_to swap13 C3 C1.
Proof.
  intros Ho. rewrite !(hudson_eval m K G Ki Gi al crd Hh order _ Ho). cbv zeta. cbn [Z.eqb Pos.eqb].
  do 2 eexists. do 2 (split; [reflexivity|]). split; [apply vti_ti|]. split; [apply hti_ti|]. apply vti_hti_swap.
Qed.
Lemma hudson_bad_axis order axis : (order = 1 \/ order = 2)%Z -> (axis <> 1)%Z -> (axis <> 3)%Z ->
  EM_hudson m (Fin K) (Fin G) (Fin Ki) (Fin Gi) (Fin al) (Fin crd) order axis = Raise UnboundLocalError.
Proof.
  intros Ho N1 N3. rewrite (hudson_eval m K G Ki Gi al crd Hh order _ Ho). cbv zeta.
  destruct (Z.eqb_spec axis 3); [contradiction|]. destruct (Z.eqb_spec axis 1); [contradiction|]. reflexivity.
Qed.

Lemma host_facts2 : 0 < G /\ 0 <> al /\ 0 < lam + G /\ 0 < lam + 2*G /\ 0 < 3 * lam + 4 * G /\
  0 <= (Ki + 4 * Gi / 3) * (lam + 2 * G) / (PI * al * G * (lam + G)) /\
  0 <= 4 * Gi * (lam + G) / (PI * al * G * (3 * lam + 4 * G)) /\
  PI * al * G * (lam + G) <> 0 /\ PI * al * G * (3 * lam + 4 * G) <> 0 /\ G^2 <> 0.
Proof.
  destruct (host_facts K G Ki Gi al Hh) as (Hl1 & Hl2 & Hl3 & HPI & Hk & HM).
  destruct Hh as (HK & HG & HKi & HGi & Hal).
  rewrite (lam_eq K G) in Hl1, Hl2, Hl3, Hk, HM; fold lam in Hl1, Hl2, Hl3, Hk, HM.
  assert (N1 : PI * al * G * (lam + G) <> 0) by (apply Rgt_not_eq; mp).
  assert (N2 : PI * al * G * (3 * lam + 4 * G) <> 0) by (apply Rgt_not_eq; mp).
  assert (N3 : G^2 <> 0) by (apply pow_nonzero; lra).
  assert (0 <> al) by lra. tauto.
Qed.

Lemma hudson_bad_order order axis : (order <> 1)%Z -> (order <> 2)%Z ->
  EM_hudson m (Fin K) (Fin G) (Fin Ki) (Fin Gi) (Fin al) (Fin crd) order axis = Raise UnboundLocalError.
Proof.
  intros M1 M2. destruct host_facts2 as (HG & Hal & Hl1 & Hl2 & Hl3 & Hk & HM & N1 & N2 & N3). unfold EM_hudson.
  repeat (first [fl1 | rewrite fdiv_fin by lra]; cbv beta). rewrite (lam_eq K G); fold lam.
  repeat (first [fl1 | rewrite fdiv_fin by lra]; cbv beta).
  rewrite fin_U1 by lra. fl1; cbv beta. rewrite fin_U3 by lra. fl1; cbv beta.
  repeat (first [fl1 | rewrite fdiv_fin by (assumption || lra)]; cbv beta).
  destruct (Z.eqb_spec order 1); [contradiction|]. destruct (Z.eqb_spec order 2); [contradiction|]. reflexivity.
Qed.

(** Random orientations. *)
Lemma hudson_rand_eval :
  EM_hudson_rand m (Fin K) (Fin G) (Fin Ki) (Fin Gi) (Fin al) (Fin crd) =
  Ret (Fin (K - (3*lam + 2*G)^2 * crd * U3 / (9 * G)), Fin (G - 2 * G * crd * (3 * U1 + 2 * U3))).
Proof.
  destruct host_facts2 as (HG & Hal & Hl1 & Hl2 & Hl3 & Hk & HM & N1 & N2 & N3). unfold EM_hudson_rand.
  repeat (first [fl1 | rewrite fdiv_fin by lra]; cbv beta). rewrite (lam_eq K G); fold lam.
  repeat (first [fl1 | rewrite fdiv_fin by lra]; cbv beta).
  rewrite fin_U1 by lra. fl1; cbv beta. rewrite fin_U3 by lra. fl1; cbv beta. fold U1 U3.
  repeat (first [fl1 | rewrite fdiv_fin by (assumption || lra)]; cbv beta).
  reteq; unfold lam; field; lra.
Qed.
Lemma hudson_rand_spec :
  exists C Ke Ge,
    EM_hudson m (Fin K) (Fin G) (Fin Ki) (Fin Gi) (Fin al) (Fin crd) 1 3 = Ret (finmat C) /\
    EM_hudson_rand m (Fin K) (Fin G) (Fin Ki) (Fin Gi) (Fin al) (Fin crd) = Ret (Fin Ke, Fin Ge) /\
    Ke = iso_K C /\ Ge - G = 15 * (iso_G C - G).
Proof.
  rewrite (hudson_eval m K G Ki Gi al crd Hh 1 3 (or_introl eq_refl)). cbv zeta. cbn [Z.eqb Pos.eqb].
  rewrite hudson_rand_eval. do 3 eexists. do 2 (split; [reflexivity|]).
  rewrite !(lam_eq K G); fold lam; fold U1 U3. assert (HG : 0 < G) by apply Hh.
  unfold iso_G, iso_K, tensor, sum3, vti, ofrows; cbn [vgt nth].
  rewrite !Rmult_0_l. split; unfold lam; field; lra.
Qed.

End H.

(** Three orthogonal sets. *)
Lemma hudson_ortho_spec m K G Ki Gi (al crd : nat -> R) :
  (forall a, (a < 3)%nat -> host K G Ki Gi (al a)) ->
  let lam := K - 2/3 * G in
  exists C0 C,
    utils_write_iso m (Fin K) (Fin G) = Ret (finmat C0) /\
    EM_hudson_ortho m (Fin K) (Fin G) (Fin Ki) (Fin Gi) (Fin (al 0%nat), Fin (al 1%nat), Fin (al 2%nat))
      (Fin (crd 0%nat), Fin (crd 1%nat), Fin (crd 2%nat)) = Ret (finmat C) /\
    forall i j k l, ax4 i j k l ->
    tensor C i j k l = tensor C0 i j k l - sum3 (fun a => crd a / G *
      crack_loss C0 (penny_U1 lam G Gi (al a)) (penny_U3 lam G Ki Gi (al a)) (axis_dir a) i j k l).
Proof.
  intros Hh lam. exists (iso K G).
  assert (H0 := Hh 0%nat ltac:(lia)). assert (H1 := Hh 1%nat ltac:(lia)). assert (H2 := Hh 2%nat ltac:(lia)). clear Hh.
  assert (HG : 0 < G) by apply H0.
  assert (Hl1 : 0 < lam + G) by (destruct H0; unfold lam; lra).
  assert (Hl3 : 0 < 3 * lam + 4 * G) by (destruct H0; unfold lam; lra).
  assert (X : forall a, host K G Ki Gi a ->
    fdiv NumPy (Fin (16 * (lam + 2 * G))) (fmul (Fin (3 * (3 * lam + 4 * G)))
      (fadd (Fin 1) (fdiv NumPy (Fin (4 * Gi * (lam + G))) (Fin (PI * a * G * (3 * lam + 4 * G))))))
    = Fin (penny_U1 lam G Gi a) /\
    fdiv NumPy (Fin (4 * (lam + 2 * G))) (fmul (Fin (3 * (lam + G)))
      (fadd (Fin 1) (fdiv NumPy (Fin ((Ki + 4 * Gi / 3) * (lam + 2 * G))) (Fin (PI * a * G * (lam + G))))))
    = Fin (penny_U3 lam G Ki Gi a)).
  { intros a Ha. destruct (host_facts K G Ki Gi a Ha) as (_ & _ & _ & HPI & Hk & HM).
    rewrite (lam_eq K G) in Hk, HM. fold lam in Hk, HM. destruct Ha as (_ & _ & _ & _ & Ha).
    split; rewrite (fdiv_fin NumPy _ (PI * _ * _ * _)) by (apply Rgt_not_eq; mp); repeat fl1.
    - rewrite fin_U1 by lra. reflexivity.
    - rewrite fin_U3 by lra. reflexivity. }
  assert (E : EM_hudson_ortho m (Fin K) (Fin G) (Fin Ki) (Fin Gi) (Fin (al 0%nat), Fin (al 1%nat), Fin (al 2%nat))
      (Fin (crd 0%nat), Fin (crd 1%nat), Fin (crd 2%nat)) =
    let u1 a := penny_U1 lam G Gi (al a) in let u3 a := penny_U3 lam G Ki Gi (al a) in
    let a11 a := lam^2 * crd a * u3 a / G in let a13 a := lam * (lam + 2*G) * crd a * u3 a / G in
    let a33 a := (lam + 2*G)^2 * crd a * u3 a / G in let a44 a := G * crd a * u1 a in
    Ret (finmat (ortho (lam + 2*G - a33 0%nat - a11 1%nat - a11 2%nat)
      (lam + 2*G - a11 0%nat - a33 1%nat - a11 2%nat) (lam + 2*G - a11 0%nat - a11 1%nat - a33 2%nat)
      (lam - a13 0%nat - a13 1%nat - a11 2%nat) (lam - a13 0%nat - a11 1%nat - a13 2%nat)
      (lam - a11 0%nat - a13 1%nat - a13 2%nat) (G - a44 1%nat - a44 2%nat) (G - a44 0%nat - a44 2%nat)
      (G - a44 0%nat - a44 1%nat)))).
  { destruct (X _ H0) as [X01 X03]. destruct (X _ H1) as [X11 X13]. destruct (X _ H2) as [X21 X23].
    unfold EM_hudson_ortho.
    repeat (first [fl1 | rewrite fdiv_fin by lra]; cbv beta). rewrite (lam_eq K G); fold lam. cbv zeta.
    repeat (fl1; cbv beta).
    rewrite X01, X03, X11, X13, X21, X23.
    repeat (first [fl1 | rewrite fdiv_fin by lra]; cbv beta).
    rewrite write_matrix_eval. apply f_equal, finmat_ext. intros i j Hi Hj.
    fin6 i Hi; fin6 j Hj; unfold ortho, ofrows; cbn [nth]; try reflexivity; field; lra. }
  rewrite E. cbv zeta. eexists. split; [apply write_iso_eval|]. split; [reflexivity|].
  intros i j k l A. unfold sum3 at 1. rewrite loss_axis1, loss_axis2, loss_axis3 by auto. cbv zeta.
  rewrite (lam_eq K G); fold lam.
  destruct A as (Hi & Hj & Hk & Hl).
  generalize (penny_U1 lam G Gi) (penny_U3 lam G Ki Gi). intros u1 u3. unfold lam.
  fin3 i; fin3 j; fin3 k; fin3 l; unfold iso, ortho, tensor, vti, hti, ofrows; cbn [vgt nth]; field; lra.
Qed.

(** ** Means over a turn *)
Lemma cm_ext f g v : (forall x, f x = g x) -> circle_mean f v -> circle_mean g v.
Proof. intros E (F & D & V). exists F; split; auto. intros x. rewrite <- E. apply D. Qed.
Lemma cm_scal c f v : circle_mean f v -> circle_mean (fun x => c * f x) (c * v).
Proof.
  intros (F & D & V). exists (fun x => c * F x). split.
  - intros x. apply derivable_pt_lim_scal, D.
  - replace (2 * PI * (c * v)) with (c * (2 * PI * v)) by ring. rewrite <- V. ring.
Qed.
Lemma cm_plus f g v w : circle_mean f v -> circle_mean g w -> circle_mean (fun x => f x + g x) (v + w).
Proof.
  intros (F & D & V) (F' & D' & V'). exists (fun x => F x + F' x). split.
  - intros x. apply (derivable_pt_lim_plus F F'); auto.
  - replace (2 * PI * (v + w)) with (2 * PI * v + 2 * PI * w) by ring. rewrite <- V, <- V'. ring.
Qed.

Definition cmv (p q : nat) : R :=
  match p, q with
  | 0%nat, 0%nat => 1 | 2%nat, 0%nat => 1/2 | 0%nat, 2%nat => 1/2
  | 4%nat, 0%nat => 3/8 | 0%nat, 4%nat => 3/8 | 2%nat, 2%nat => 1/8
  | _, _ => 0
  end.
Lemma cm_mon p q : (p + q <= 4)%nat -> circle_mean (fun x => cos x ^ p * sin x ^ q) (cmv p q).
Proof.
  assert (T : forall x, sin x * sin x = 1 - cos x * cos x).
  { intros x. generalize (sin2_cos2 x). unfold Rsqr. lra. }
  assert (A : forall (F f : R -> R) v, (forall x, is_derive F x (f x)) -> F (2*PI) - F 0 = 2*PI*v -> circle_mean f v).
  { intros F f v D V. exists F. split; auto. intros x. apply is_derive_Reals, D. }
  intros H. destruct p as [|[|[|[|[|p]]]]]; [| | | | |exfalso; lia];
  destruct q as [|[|[|[|[|q]]]]]; try (exfalso; lia); cbv [cmv]; clear H.
  1: apply (A (fun x => x)).
  3: apply (A (fun x => - cos x)).
  5: apply (A (fun x => x / 2 - sin x * cos x / 2)).
  7: apply (A (fun x => - cos x + cos x ^ 3 / 3)).
  9: apply (A (fun x => 3/8 * x - 3/8 * sin x * cos x - sin x ^ 3 * cos x / 4)).
  11: apply (A (fun x => sin x)).
  13: apply (A (fun x => sin x ^ 2 / 2)).
  15: apply (A (fun x => sin x ^ 3 / 3)).
  17: apply (A (fun x => sin x ^ 4 / 4)).
  19: apply (A (fun x => x / 2 + sin x * cos x / 2)).
  21: apply (A (fun x => - cos x ^ 3 / 3)).
  23: apply (A (fun x => x / 8 - cos x ^ 3 * sin x / 4 + cos x * sin x / 8)).
  25: apply (A (fun x => sin x - sin x ^ 3 / 3)).
  27: apply (A (fun x => - cos x ^ 4 / 4)).
  29: apply (A (fun x => 3/8 * x + 3/8 * sin x * cos x + cos x ^ 3 * sin x / 4)).
  all: try (cbv beta; rewrite ?sin_2PI, ?cos_2PI, ?sin_0, ?cos_0; field).
  all: intros x; auto_derive; auto; simpl pow;
    generalize (T x); generalize (sin x) (cos x); intros s c Q; clear T A; field [Q].
Qed.

Definition pq_p (l : list nat) : nat := length (filter (Nat.eqb 0) l).
Definition pq_q (l : list nat) : nat := length (filter (Nat.eqb 1) l).
Definition mean2 (th : R) (i j : nat) : R :=
  let p := pq_p [i; j] in let q := pq_q [i; j] in sin th ^ (p + q) * cos th ^ (2 - p - q) * cmv p q.
Definition mean4 (th : R) (i j k l : nat) : R :=
  let p := pq_p [i; j; k; l] in let q := pq_q [i; j; k; l] in sin th ^ (p + q) * cos th ^ (4 - p - q) * cmv p q.
Lemma cm_mean2 th i j : (i < 3)%nat -> (j < 3)%nat ->
  circle_mean (fun ph => polar_dir th ph i * polar_dir th ph j) (mean2 th i j).
Proof.
  intros Hi Hj. unfold mean2.
  apply (cm_ext (fun ph => (sin th ^ (pq_p [i;j] + pq_q [i;j]) * cos th ^ (2 - pq_p [i;j] - pq_q [i;j])) *
                           (cos ph ^ pq_p [i;j] * sin ph ^ pq_q [i;j]))).
  - intros ph. fin3 i; fin3 j; unfold polar_dir, pq_p, pq_q; cbn [filter length Nat.eqb nth Nat.add Nat.sub]; ring.
  - apply cm_scal, cm_mon. fin3 i; fin3 j; cbv; lia.
Qed.
Lemma cm_mean4 th i j k l : ax4 i j k l ->
  circle_mean (fun ph => polar_dir th ph i * polar_dir th ph j * polar_dir th ph k * polar_dir th ph l) (mean4 th i j k l).
Proof.
  intros (Hi & Hj & Hk & Hl). unfold mean4.
  apply (cm_ext (fun ph => (sin th ^ (pq_p [i;j;k;l] + pq_q [i;j;k;l]) * cos th ^ (4 - pq_p [i;j;k;l] - pq_q [i;j;k;l])) *
                           (cos ph ^ pq_p [i;j;k;l] * sin ph ^ pq_q [i;j;k;l]))).
  - intros ph. fin3 i; fin3 j; fin3 k; fin3 l;
    unfold polar_dir, pq_p, pq_q; cbn [filter length Nat.eqb nth Nat.add Nat.sub]; ring.
  - apply cm_scal, cm_mon. fin3 i; fin3 j; fin3 k; fin3 l; cbv; lia.
Qed.
Definition mean_loss (lam G U1 U3 th : R) (i j k l : nat) : R :=
  U1 * (lam^2 * kron i j * kron k l + 2 * lam * G * (kron i j * mean2 th k l + kron k l * mean2 th i j)
        + G^2 * (kron i k * mean2 th j l + kron i l * mean2 th j k + kron j k * mean2 th i l + kron j l * mean2 th i k))
  + (U3 - U1) * (lam^2 * kron i j * kron k l + 2 * lam * G * (kron i j * mean2 th k l + kron k l * mean2 th i j)
        + 4 * G^2 * mean4 th i j k l).
Lemma cm_const c : circle_mean (fun _ => c) c.
Proof.
  assert (E : c = c * cmv 0 0) by (cbv [cmv]; ring).
  apply (cm_ext (fun x => c * (cos x ^ 0 * sin x ^ 0))); [intros; simpl; ring|].
  generalize (cm_scal c _ _ (cm_mon 0 0 ltac:(lia))). rewrite <- E. auto.
Qed.
Lemma cm_loss K G U1 U3 th i j k l : ax4 i j k l ->
  circle_mean (fun ph => crack_loss (iso K G) U1 U3 (polar_dir th ph) i j k l) (mean_loss (K - 2*G/3) G U1 U3 th i j k l).
Proof.
  intros A. set (lam := K - 2*G/3).
  apply (cm_ext (fun ph => loss_form lam G U1 U3 (polar_dir th ph) i j k l)).
  { intros ph. symmetry. apply loss_closed; auto using iso_isotropic, polar_unit. }
  pose proof A as (Hi & Hj & Hk & Hl).
  unfold loss_form, mean_loss.
  repeat first [apply cm_plus | apply cm_scal | apply cm_mean2; assumption | apply cm_mean4; assumption | apply cm_const].
Qed.

(** Cone of normals. *)
Section Cone.
Variables (m : mode) (K G Ki Gi al crd deg : R).
Hypothesis Hh : host K G Ki Gi al.
Let lam := K - 2/3 * G.
Let U1 := penny_U1 lam G Gi al.
Let U3 := penny_U3 lam G Ki Gi al.
Let th := deg * PI / 180.
Let cone66 := G - crd / 2 * G * (U3 * 4 * sin th ^ 4 + U1 * sin th ^ 2 * (2 - sin th ^ 2)).
Let cone_c11 := lam + 2*G - crd / (2*G) * (U3 * (2 * lam^2 + 4 * lam * G * sin th ^ 2 + 3 * G^2 * sin th ^ 4)
       + U1 * G^2 * sin th ^ 2 * (4 - 3 * sin th ^ 2)).
Let cone_c33 := lam + 2*G - crd / G * (U3 * (lam + 2*G * cos th ^ 2) ^ 2 + U1 * G^2 * 4 * cos th ^ 2 * sin th ^ 2).
Let cone_c12 := lam - crd / (2*G) * (U3 * (2 * lam^2 + 4 * lam * G * sin th ^ 2 + G^2 * sin th ^ 4) - U1 * G^2 * sin th ^ 4).
Let cone_c13 := lam - crd / G * (U3 * (lam + G * sin th ^ 2) * (lam + 2 * G * cos th ^ 2) - U1 * G^2 * 2 * sin th ^ 2 * cos th ^ 2).
Let cone_c44 := G - crd / 2 * G * (U3 * 4 * sin th ^ 2 * cos th ^ 2
   + U1 * (sin th ^ 2 + 2 * cos th ^ 2 - 4 * sin th ^ 2 * cos th ^ 2)).
Lemma hudson_cone_eval :
  EM_hudson_cone m (Fin K) (Fin G) (Fin Ki) (Fin Gi) (Fin al) (Fin crd) (Fin deg) =
  Ret (finmat (ortho cone_c11 cone_c11 cone_c33 cone_c12 cone_c13 cone_c13 cone_c44 cone_c44 cone66)).
Proof.
  destruct (host_facts2 K G Ki Gi al Hh) as (HG & Hal & Hl1 & Hl2 & Hl3 & Hk & HM & N1 & N2 & N3).
  fold lam in Hl1, Hl2, Hl3, Hk, HM, N1, N2.
  unfold EM_hudson_cone. 
  repeat (first [fl1 | rewrite fdiv_fin by lra]; cbv beta). rewrite (lam_eq K G); fold lam.
  repeat (first [fl1 | rewrite fdiv_fin by lra]; cbv beta).
  rewrite fin_U1 by lra. fl1; cbv beta. rewrite fin_U3 by lra. fl1; cbv beta. fold U1 U3.
  repeat (first [fl1 | rewrite fdiv_fin by (assumption || lra)]; cbv beta).
  rewrite write_matrix_eval. fold th.
  apply f_equal, finmat_ext. intros i j Hi Hj.
  unfold cone66, cone_c11, cone_c33, cone_c12, cone_c13, cone_c44.
  fin6 i Hi; fin6 j Hj; unfold ortho, ofrows; cbn [nth]; try reflexivity; field; lra.
Qed.

Lemma hudson_cone_spec :
  exists C0 C,
    utils_write_iso m (Fin K) (Fin G) = Ret (finmat C0) /\
    EM_hudson_cone m (Fin K) (Fin G) (Fin Ki) (Fin Gi) (Fin al) (Fin crd) (Fin deg) = Ret (finmat C) /\
    forall i j k l, ax4 i j k l -> exists v,
    circle_mean (fun ph => crack_loss C0 U1 U3 (polar_dir th ph) i j k l) v /\
    tensor C i j k l = tensor C0 i j k l - crd / G * v
      - (if Nat.eqb (vgt i j) 5 && Nat.eqb (vgt k l) 5 then 3/2 * crd * G * U3 * sin th ^ 4 else 0).
Proof.
  assert (HG : 0 < G) by apply Hh.
  exists (iso K G). rewrite hudson_cone_eval. eexists. split; [apply write_iso_eval|]. split; [reflexivity|].
  intros i j k l A. exists (mean_loss (K - 2*G/3) G U1 U3 th i j k l). split; [apply cm_loss, A|].
  rewrite (lam_eq K G); fold lam. destruct A as (Hi & Hj & Hk & Hl).
  unfold cone66, cone_c11, cone_c33, cone_c12, cone_c13, cone_c44.
  assert (Q : cos th ^ 2 = 1 - sin th ^ 2) by (generalize (sin2_cos2 th); unfold Rsqr; intros; simpl; lra).
  clear cone66 cone_c11 cone_c33 cone_c12 cone_c13 cone_c44.
  unfold mean_loss, mean2, mean4. revert Q. generalize (cos th) (sin th). intros c s Q.
  fin3 i; fin3 j; fin3 k; fin3 l; unfold pq_p, pq_q, iso, ortho, tensor, kron, vti, ofrows;
  cbn [filter length Nat.eqb nth Nat.add Nat.sub vgt cmv andb]; rewrite ?lam_eq; unfold lam;
  try ring; field [Q]; lra.
Qed.
End Cone.
