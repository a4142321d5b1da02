From Verif Require Import Fl M_Utils Spec.
Open Scope R_scope.

(** Build an [rmat] from rows. *)
Definition ofrows (L : list (list R)) : rmat := fun i j => nth j (nth i L []) 0.

Ltac fin6 i Hi := destruct i as [|[|[|[|[|[|i]]]]]]; [..| exfalso; lia].
Ltac fin3 i := destruct i as [|[|[|i]]]; [..| exfalso; lia].

Lemma V_eval m K G rho : 0 < rho -> 0 <= K + 4/3*G -> 0 <= G ->
  utils_V m (Fin K) (Fin G) (Fin rho) =
  Ret (Fin (sqrt ((K + 4/3 * G) / rho) * 1000), Fin (sqrt (G / rho) * 1000)).
Proof.
  intros Hr H1 H2. unfold utils_V.
  fls. reflexivity.
Qed.

Lemma M_from_V_eval m den vp vs :
  utils_M_from_V m (Fin den) (Fin vp) (Fin vs) =
  Ret (Fin (den * (vp^2 - 4/3*vs^2) / 1000000), Fin (den * vs^2 / 1000000)).
Proof. unfold utils_M_from_V. fls. reteq; field. Qed.

Lemma V_M_roundtrip m K G rho : 0 < rho -> 0 <= K + 4/3*G -> 0 <= G ->
  exists vp vs,
    utils_V m (Fin K) (Fin G) (Fin rho) = Ret (Fin vp, Fin vs) /\ 0 <= vp /\ 0 <= vs /\
    utils_M_from_V m (Fin rho) (Fin vp) (Fin vs) = Ret (Fin K, Fin G).
Proof.
  intros Hr H1 H2. rewrite V_eval by assumption.
  do 2 eexists; split; [reflexivity|].
  assert (Hi : 0 < / rho) by (apply Rinv_0_lt_compat; lra).
  repeat split.
  - apply Rmult_le_pos; [apply sqrt_pos | lra].
  - apply Rmult_le_pos; [apply sqrt_pos | lra].
  - rewrite M_from_V_eval, !Rpow_mult_distr, !pow2_sqrt
      by (apply Rmult_le_pos; lra).
    reteq; field; lra.
Qed.

Lemma M_V_roundtrip m vp vs rho : 0 < rho -> 0 <= vp -> 0 <= vs ->
  exists K G,
    utils_M_from_V m (Fin rho) (Fin vp) (Fin vs) = Ret (Fin K, Fin G) /\
    utils_V m (Fin K) (Fin G) (Fin rho) = Ret (Fin vp, Fin vs).
Proof.
  intros Hr H1 H2. rewrite M_from_V_eval.
  do 2 eexists; split; [reflexivity|].
  rewrite V_eval; try assumption.
  - replace ((rho * (vp ^ 2 - 4 / 3 * vs ^ 2) / 1000000
              + 4 / 3 * (rho * vs ^ 2 / 1000000)) / rho) with ((vp/1000)^2) by (field; lra).
    replace (rho * vs ^ 2 / 1000000 / rho) with ((vs/1000)^2) by (field; lra).
    rewrite !sqrt_pow2 by lra. reteq; field.
  - assert (0 <= rho * vp^2) by (apply Rmult_le_pos; [lra | apply pow2_ge_0]). lra.
  - assert (0 <= rho * vs^2) by (apply Rmult_le_pos; [lra | apply pow2_ge_0]). lra.
Qed.

(** ** Poisson ratio, Lame constant *)
Lemma poi_eval m K G : 3*K + G <> 0 ->
  utils_poi m (Fin K) (Fin G) = Ret (Fin ((3*K - 2*G) / (6*K + 2*G))).
Proof. intros H. unfold utils_poi. fls. reflexivity. Qed.

Lemma poi_facts m K G : 0 < K -> 0 < G ->
  exists nu, utils_poi m (Fin K) (Fin G) = Ret (Fin nu) /\
    -1 < nu < 1/2 /\ K = 2*G*(1+nu)/(3*(1-2*nu)).
Proof.
  intros HK HG. rewrite poi_eval by lra. eexists; split; [reflexivity|].
  assert (H: 0 < / (6*K+2*G)) by (apply Rinv_0_lt_compat; lra).
  assert (E1 : (3*K-2*G)/(6*K+2*G) + 1 = 9*K * / (6*K+2*G)) by (field; lra).
  assert (E2 : 1/2 - (3*K-2*G)/(6*K+2*G) = 3*G * / (6*K+2*G)) by (field; lra).
  assert (0 < 9*K * / (6*K+2*G)) by pos.
  assert (0 < 3*G * / (6*K+2*G)) by pos.
  repeat split; try lra.
  field. repeat split; lra.
Qed.

Lemma poi_velocity m K G rho : 0 < K -> 0 < G -> 0 < rho ->
  exists nu vp vs, utils_poi m (Fin K) (Fin G) = Ret (Fin nu) /\
    utils_V m (Fin K) (Fin G) (Fin rho) = Ret (Fin vp, Fin vs) /\
    nu = (vp^2 - 2*vs^2) / (2*(vp^2 - vs^2)).
Proof.
  intros HK HG Hr. rewrite poi_eval by lra. rewrite V_eval by lra.
  do 3 eexists; split; [reflexivity|]; split; [reflexivity|].
  rewrite !Rpow_mult_distr, !pow2_sqrt by pos. field. split; lra.
Qed.

Lemma poi_zero m K G : 3*K + G = 0 ->
  utils_poi PyFloat (Fin K) (Fin G) = Raise ZeroDivisionError /\
  forall r, utils_poi m (Fin K) (Fin G) <> Ret (Fin r).
Proof.
  intros H. unfold utils_poi. rewrite !fmul_fin, !fadd_fin, !fsub_fin.
  replace (6*K+2*G) with 0 by lra. rewrite fdiv_zero_py_fin.
  split; [reflexivity|]. intros r.
  destruct m; [rewrite fdiv_zero_py_fin; simpl; congruence|].
  simpl. destruct (Req_EM_T 0 0); [|lra].
  destruct (Req_EM_T (3 * K - 2 * G) 0); simpl; congruence.
Qed.

Lemma lame_eval m K G : utils_lame m (Fin K) (Fin G) = Ret (Fin (K - 2*G/3)).
Proof. unfold utils_lame. fls. reflexivity. Qed.

(** ** Matrix writers *)
Definition vti (c11 c33 c13 c44 c66 : R) : rmat := ofrows
  [[c11; c11 - 2*c66; c13; 0; 0; 0]; [c11 - 2*c66; c11; c13; 0; 0; 0]; [c13; c13; c33; 0; 0; 0];
   [0; 0; 0; c44; 0; 0]; [0; 0; 0; 0; c44; 0]; [0; 0; 0; 0; 0; c66]].
Definition hti (c11 c33 c13 c44 c55 : R) : rmat := ofrows
  [[c11; c13; c13; 0; 0; 0]; [c13; c33; c33 - 2*c44; 0; 0; 0]; [c13; c33 - 2*c44; c33; 0; 0; 0];
   [0; 0; 0; c44; 0; 0]; [0; 0; 0; 0; c55; 0]; [0; 0; 0; 0; 0; c55]].
Definition ortho (c11 c22 c33 c12 c13 c23 c44 c55 c66 : R) : rmat := ofrows
  [[c11; c12; c13; 0; 0; 0]; [c12; c22; c23; 0; 0; 0]; [c13; c23; c33; 0; 0; 0];
   [0; 0; 0; c44; 0; 0]; [0; 0; 0; 0; c55; 0]; [0; 0; 0; 0; 0; c66]].
Definition iso (K G : R) : rmat := vti (K + 4*G/3) (K + 4*G/3) (K - 2*G/3) G G.

Lemma write_VTI_eval c11 c33 c13 c44 c66 :
  utils_write_VTI_matrix (Fin c11) (Fin c33) (Fin c13) (Fin c44) (Fin c66)
  = Ret (finmat (vti c11 c33 c13 c44 c66)).
Proof. reflexivity. Qed.
Lemma write_HTI_eval c11 c33 c13 c44 c55 :
  utils_write_HTI_matrix (Fin c11) (Fin c33) (Fin c13) (Fin c44) (Fin c55)
  = Ret (finmat (hti c11 c33 c13 c44 c55)).
Proof. reflexivity. Qed.
Lemma write_matrix_eval c11 c22 c33 c12 c13 c23 c44 c55 c66 :
  utils_write_matrix (Fin c11) (Fin c22) (Fin c33) (Fin c12) (Fin c13) (Fin c23)
    (Fin c44) (Fin c55) (Fin c66) = Ret (finmat (ortho c11 c22 c33 c12 c13 c23 c44 c55 c66)).
Proof. reflexivity. Qed.
Lemma write_iso_eval m K G :
  utils_write_iso m (Fin K) (Fin G) = Ret (finmat (iso K G)).
Proof.
  unfold utils_write_iso. fls. unfold finmat, iso, vti, ofrows, tab6.
  cbn [map seq nth]. reteq; field.
Qed.
Lemma finmat_ext A B : meq6 A B -> finmat A = finmat B.
Proof.
  intros H. unfold finmat, tab6. cbn [map seq].
  repeat (apply f_equal2; [|]); try reflexivity;
  repeat (apply f_equal2; [|]); try reflexivity;
  apply fin_eq; apply H; lia.
Qed.

(** ** Invariance under rotations *)
Ltac tens := unfold rotated, tensor, sum3, rot1, rot2, rot3, swap13, swap23, rows, iso, vti, hti, ortho, ofrows;
  cbn [vgt nth].
Lemma cs2 t : sin t * sin t = 1 - cos t * cos t.
Proof. generalize (sin2_cos2 t). unfold Rsqr. lra. Qed.

Ltac subst_tensor HC C :=
  repeat match goal with |- context [tensor C ?a ?b ?c ?d] => rewrite (HC a b c d) by lia end.

(** General form of a tensor that is transversely isotropic about axis [a]. *)
Definition ti_form (a : nat) (A B D E F : R) (C : rmat) : Prop :=
  forall i j k l, (i < 3)%nat -> (j < 3)%nat -> (k < 3)%nat -> (l < 3)%nat ->
  tensor C i j k l = A * kron i j * kron k l + B * (kron i k * kron j l + kron i l * kron j k)
    + D * (kron i j * kron k a * kron l a + kron i a * kron j a * kron k l)
    + E * (kron i k * kron j a * kron l a + kron i l * kron j a * kron k a
           + kron j k * kron i a * kron l a + kron j l * kron i a * kron k a)
    + F * kron i a * kron j a * kron k a * kron l a.

Lemma ti_invariant a A B D E F C : (a < 3)%nat -> ti_form a A B D E F C -> transversely_isotropic a C.
Proof.
  intros Ha HC Q HQ HF i j k l Hi Hj Hk Hl.
  assert (EQ : rotated Q C i j k l =
    A * sum3 (fun p => Q i p * Q j p) * sum3 (fun p => Q k p * Q l p)
    + B * (sum3 (fun p => Q i p * Q k p) * sum3 (fun p => Q j p * Q l p)
           + sum3 (fun p => Q i p * Q l p) * sum3 (fun p => Q j p * Q k p))
    + D * (sum3 (fun p => Q i p * Q j p) * Q k a * Q l a + Q i a * Q j a * sum3 (fun p => Q k p * Q l p))
    + E * (sum3 (fun p => Q i p * Q k p) * Q j a * Q l a + sum3 (fun p => Q i p * Q l p) * Q j a * Q k a
           + sum3 (fun p => Q j p * Q k p) * Q i a * Q l a + sum3 (fun p => Q j p * Q l p) * Q i a * Q k a)
    + F * Q i a * Q j a * Q k a * Q l a).
  { unfold rotated, sum3. subst_tensor HC C.
    fin3 a; unfold kron; cbn [Nat.eqb]; ring. }
  rewrite EQ, !HQ, !HF, HC by assumption. reflexivity.
Qed.

Lemma vti_ti c11 c33 c13 c44 c66 : transversely_isotropic 2 (vti c11 c33 c13 c44 c66).
Proof.
  apply (ti_invariant 2 (c11 - 2*c66) c66 (c13 - (c11 - 2*c66)) (c44 - c66)
           (c11 + c33 - 2 * c13 - 4 * c44)); [lia|].
  intros i j k l Hi Hj Hk Hl.
  fin3 i; fin3 j; fin3 k; fin3 l; tens; unfold kron; cbn [Nat.eqb]; ring.
Qed.
Lemma hti_ti c11 c33 c13 c44 c55 : transversely_isotropic 0 (hti c11 c33 c13 c44 c55).
Proof.
  apply (ti_invariant 0 (c33 - 2*c44) c44 (c13 - (c33 - 2*c44)) (c55 - c44)
           (c11 + c33 - 2 * c13 - 4 * c55)); [lia|].
  intros i j k l Hi Hj Hk Hl.
  fin3 i; fin3 j; fin3 k; fin3 l; tens; unfold kron; cbn [Nat.eqb]; ring.
Qed.
Lemma rot3_ortho t : orthogonal (rot3 t) /\ fixes (rot3 t) 2.
Proof.
  pose proof (cs2 t) as E. split.
  - intros i j Hi Hj. fin3 i; fin3 j; unfold sum3, rot3, rows, kron; cbn [nth Nat.eqb]; nra.
  - intros i Hi. fin3 i; reflexivity.
Qed.
Lemma rot1_ortho t : orthogonal (rot1 t) /\ fixes (rot1 t) 0.
Proof.
  pose proof (cs2 t) as E. split.
  - intros i j Hi Hj. fin3 i; fin3 j; unfold sum3, rot1, rows, kron; cbn [nth Nat.eqb]; nra.
  - intros i Hi. fin3 i; reflexivity.
Qed.
Lemma iso_isotropic K G : is_isotropic K G (iso K G).
Proof.
  intros i j k l Hi Hj Hk Hl.
  fin3 i; fin3 j; fin3 k; fin3 l; tens; unfold kron; cbn [Nat.eqb]; field.
Qed.
(** Isotropy implies invariance under every orthogonal map. *)
Lemma isotropic_invariant K G C Q : is_isotropic K G C -> orthogonal Q -> invariant Q C.
Proof.
  intros HC HQ i j k l Hi Hj Hk Hl.
  assert (E : rotated Q C i j k l =
    (K - 2*G/3) * sum3 (fun p => Q i p * Q j p) * sum3 (fun p => Q k p * Q l p)
    + G * (sum3 (fun p => Q i p * Q k p) * sum3 (fun p => Q j p * Q l p)
           + sum3 (fun p => Q i p * Q l p) * sum3 (fun p => Q j p * Q k p))).
  { unfold rotated, sum3. subst_tensor HC C.
    unfold kron; cbn [Nat.eqb]. generalize (K - 2*G/3). intros L. ring. }
  rewrite E, !HQ, HC by assumption. reflexivity.
Qed.
Lemma vti_hti_swap c11 c33 c13 c44 c66 :
  rotates_to swap13 (vti c11 c33 c13 c44 c66) (hti c33 c11 c13 c66 c44).
Proof.
  intros i j k l Hi Hj Hk Hl.
  fin3 i; fin3 j; fin3 k; fin3 l; tens; ring.
Qed.
Lemma vti_sym c11 c33 c13 c44 c66 : symmetric (vti c11 c33 c13 c44 c66).
Proof. intros i j Hi Hj. fin6 i Hi; fin6 j Hj; reflexivity. Qed.
Lemma hti_sym c11 c33 c13 c44 c66 : symmetric (hti c11 c33 c13 c44 c66).
Proof. intros i j Hi Hj. fin6 i Hi; fin6 j Hj; reflexivity. Qed.

(** ** Compliance *)
Definition vtic (s11 s12 s13 s33 s44 : R) : rmat := ofrows
  [[s11; s12; s13; 0; 0; 0]; [s12; s11; s13; 0; 0; 0]; [s13; s13; s33; 0; 0; 0];
   [0; 0; 0; s44; 0; 0]; [0; 0; 0; 0; s44; 0]; [0; 0; 0; 0; 0; 2*(s11-s12)]].
Lemma write_VTIc_eval s11 s12 s13 s33 s44 :
  utils_write_VTI_compliance (Fin s11) (Fin s12) (Fin s13) (Fin s33) (Fin s44)
  = Ret (finmat (vtic s11 s12 s13 s33 s44)).
Proof. reflexivity. Qed.

Lemma VTI_compliance_inverse c11 c33 c13 c44 c66 :
  c44 <> 0 -> c66 <> 0 -> (c11 - c66) * c33 - c13^2 <> 0 ->
  exists s11 s12 s13 s33 s44 S C,
    utils_write_VTI_compliance (Fin s11) (Fin s12) (Fin s13) (Fin s33) (Fin s44) = Ret (finmat S) /\
    utils_write_VTI_matrix (Fin c11) (Fin c33) (Fin c13) (Fin c44) (Fin c66) = Ret (finmat C) /\
    meq6 (mmul C S) ident /\ meq6 (mmul S C) ident.
Proof.
  intros H4 H6 HD.
  set (D := (c11 - c66) * c33 - c13^2) in *.
  exists ((c33 / D + 1 / c66) / 4 ), ((c33 / D - 1 / c66)/4), (- c13 / (2*D)), ((c11 - c66) / D), (1 / c44).
  do 2 eexists. split; [apply write_VTIc_eval|]. split; [apply write_VTI_eval|].
  split; intros i j Hi Hj; fin6 i Hi; fin6 j Hj;
  unfold mmul, sum6, vti, vtic, ofrows, ident; cbn [nth Nat.eqb]; unfold D in *;
  field; auto.
Qed.

Lemma mmul_assoc A B C i j : mmul (mmul A B) C i j = mmul A (mmul B C) i j.
Proof. unfold mmul, sum6. ring. Qed.
Lemma mmul_ext A A' B B' : meq6 A A' -> meq6 B B' -> meq6 (mmul A B) (mmul A' B').
Proof.
  intros HA HB i j Hi Hj. unfold mmul, sum6.
  rewrite (HA i 0%nat), (HA i 1%nat), (HA i 2%nat), (HA i 3%nat), (HA i 4%nat), (HA i 5%nat) by lia.
  rewrite (HB 0%nat), (HB 1%nat), (HB 2%nat), (HB 3%nat), (HB 4%nat), (HB 5%nat) by lia.
  reflexivity.
Qed.
Lemma mmul_1_l A : meq6 (mmul ident A) A.
Proof. intros i j Hi Hj. fin6 i Hi; unfold mmul, sum6, ident; cbn [Nat.eqb]; ring. Qed.
Lemma mmul_1_r A : meq6 (mmul A ident) A.
Proof. intros i j Hi Hj. fin6 j Hj; unfold mmul, sum6, ident; cbn [Nat.eqb]; ring. Qed.
Lemma meq6_sym A B : meq6 A B -> meq6 B A.
Proof. intros H i j Hi Hj. symmetry. apply H; assumption. Qed.
Lemma meq6_trans A B C : meq6 A B -> meq6 B C -> meq6 A C.
Proof. intros H1 H2 i j Hi Hj. rewrite H1, H2; auto. Qed.
Lemma meq6_refl A : meq6 A A.
Proof. intros i j _ _. reflexivity. Qed.
Lemma mmul_assoc6 A B C : meq6 (mmul (mmul A B) C) (mmul A (mmul B C)).
Proof. intros i j _ _. apply mmul_assoc. Qed.
(** A left inverse and a right inverse agree. *)
Lemma inverse_unique C S S' : meq6 (mmul S' C) ident -> meq6 (mmul C S) ident -> meq6 S S'.
Proof.
  intros HL HR.
  eapply meq6_trans; [apply meq6_sym, mmul_1_l|].
  eapply meq6_trans; [apply mmul_ext; [apply meq6_sym, HL | apply meq6_refl]|].
  eapply meq6_trans; [apply mmul_assoc6|].
  eapply meq6_trans; [apply mmul_ext; [apply meq6_refl | apply HR]|].
  apply mmul_1_r.
Qed.

Lemma VTI_compliance_of_inverse c11 c33 c13 c44 c66 C S :
  c44 <> 0 -> c66 <> 0 -> (c11 - c66) * c33 - c13^2 <> 0 ->
  utils_write_VTI_matrix (Fin c11) (Fin c33) (Fin c13) (Fin c44) (Fin c66) = Ret (finmat C) ->
  meq6 (mmul C S) ident ->
  utils_write_VTI_compliance (Fin (S 0 0)%nat) (Fin (S 0 1)%nat) (Fin (S 0 2)%nat)
    (Fin (S 2 2)%nat) (Fin (S 3 3)%nat) = Ret (finmat S).
Proof.
  intros H4 H6 HD EC HS.
  destruct (VTI_compliance_inverse c11 c33 c13 c44 c66 H4 H6 HD)
    as (s11 & s12 & s13 & s33 & s44 & S' & C' & ES & EC' & HR & HL).
  assert (Heq : finmat C = finmat C') by congruence.
  assert (HC : meq6 C C').
  { clear - Heq. intros i j Hi Hj. unfold finmat, tab6 in Heq. cbn [map seq] in Heq.
    injection Heq; intros.
    fin6 i Hi; fin6 j Hj; assumption. }
  assert (HSS : meq6 S S').
  { apply inverse_unique with C; [|exact HS].
    eapply meq6_trans; [apply mmul_ext; [apply meq6_refl | apply HC] | exact HL]. }
  rewrite write_VTIc_eval in ES.
  assert (E : finmat (vtic s11 s12 s13 s33 s44) = finmat S') by congruence.
  assert (HT : meq6 (vtic s11 s12 s13 s33 s44) S').
  { clear - E. intros i j Hi Hj. unfold finmat, tab6 in E. cbn [map seq] in E.
    injection E; intros.
    fin6 i Hi; fin6 j Hj; assumption. }
  rewrite write_VTIc_eval. f_equal. apply finmat_ext.
  assert (HU : meq6 S (vtic s11 s12 s13 s33 s44)).
  { eapply meq6_trans; [exact HSS | apply meq6_sym, HT]. }
  intros i j Hi Hj. rewrite (HU i j Hi Hj).
  rewrite !HU by lia.
  fin6 i Hi; fin6 j Hj; unfold vtic, ofrows; cbn [nth]; reflexivity.
Qed.

(** ** Packaged statements *)
Lemma write_VTI_class c11 c33 c13 c44 c66 :
  exists C, utils_write_VTI_matrix (Fin c11) (Fin c33) (Fin c13) (Fin c44) (Fin c66) = Ret (finmat C)
    /\ symmetric C /\ transversely_isotropic 2 C
    /\ C 0%nat 0%nat = c11 /\ C 2%nat 2%nat = c33 /\ C 0%nat 2%nat = c13
    /\ C 3%nat 3%nat = c44 /\ C 5%nat 5%nat = c66
    /\ (forall i j, (i < 6)%nat -> (3 <= j < 6)%nat -> i <> j -> C i j = 0).
Proof.
  eexists; split; [apply write_VTI_eval|].
  repeat split; try apply vti_sym; try apply vti_ti.
  intros i j Hi [Hj1 Hj2] Hn. fin6 i Hi; fin6 j Hj2; try reflexivity; lia.
Qed.
Lemma write_HTI_class c11 c33 c13 c44 c55 :
  exists C, utils_write_HTI_matrix (Fin c11) (Fin c33) (Fin c13) (Fin c44) (Fin c55) = Ret (finmat C)
    /\ symmetric C /\ transversely_isotropic 0 C
    /\ C 0%nat 0%nat = c11 /\ C 2%nat 2%nat = c33 /\ C 0%nat 2%nat = c13
    /\ C 3%nat 3%nat = c44 /\ C 4%nat 4%nat = c55
    /\ (forall i j, (i < 6)%nat -> (3 <= j < 6)%nat -> i <> j -> C i j = 0).
Proof.
  eexists; split; [apply write_HTI_eval|].
  repeat split; try apply hti_sym; try apply hti_ti.
  intros i j Hi [Hj1 Hj2] Hn. fin6 i Hi; fin6 j Hj2; try reflexivity; lia.
Qed.
Lemma write_iso_class m K G :
  exists C, utils_write_iso m (Fin K) (Fin G) = Ret (finmat C)
    /\ is_isotropic K G C /\ (forall Q, orthogonal Q -> invariant Q C).
Proof.
  eexists; split; [apply write_iso_eval|]. split; [apply iso_isotropic|].
  intros Q HQ. eapply isotropic_invariant; [apply iso_isotropic | exact HQ].
Qed.
Lemma write_VTI_HTI_iso m K G :
  exists C, utils_write_iso m (Fin K) (Fin G) = Ret (finmat C) /\
    utils_write_VTI_matrix (Fin (K + 4/3*G)) (Fin (K + 4/3*G)) (Fin (K - 2/3*G)) (Fin G) (Fin G) = Ret (finmat C) /\
    utils_write_HTI_matrix (Fin (K + 4/3*G)) (Fin (K + 4/3*G)) (Fin (K - 2/3*G)) (Fin G) (Fin G) = Ret (finmat C).
Proof.
  eexists; split; [apply write_iso_eval|]. rewrite write_VTI_eval, write_HTI_eval.
  split; f_equal; apply finmat_ext; intros i j Hi Hj; fin6 i Hi; fin6 j Hj;
  unfold iso, vti, hti, ofrows; cbn [nth]; field.
Qed.
Lemma write_VTI_HTI_swap c11 c33 c13 c44 c66 :
  exists Cv Ch,
    utils_write_VTI_matrix (Fin c11) (Fin c33) (Fin c13) (Fin c44) (Fin c66) = Ret (finmat Cv) /\
    utils_write_HTI_matrix (Fin c33) (Fin c11) (Fin c13) (Fin c66) (Fin c44) = Ret (finmat Ch) /\
    rotates_to swap13 Cv Ch.
Proof.
  do 2 eexists; split; [apply write_VTI_eval|]; split; [apply write_HTI_eval|]. apply vti_hti_swap.
Qed.
Lemma write_matrix_entries c11 c22 c33 c12 c13 c23 c44 c55 c66 :
  exists C, utils_write_matrix (Fin c11) (Fin c22) (Fin c33) (Fin c12) (Fin c13) (Fin c23)
      (Fin c44) (Fin c55) (Fin c66) = Ret (finmat C)
    /\ symmetric C
    /\ (C 0 0 = c11 /\ C 1 1 = c22 /\ C 2 2 = c33 /\ C 0 1 = c12 /\ C 0 2 = c13 /\ C 1 2 = c23
        /\ C 3 3 = c44 /\ C 4 4 = c55 /\ C 5 5 = c66)%nat
    /\ (forall i j, (i < 6)%nat -> (3 <= j < 6)%nat -> i <> j -> C i j = 0).
Proof.
  eexists; split; [apply write_matrix_eval|]. split; [|split].
  - intros i j Hi Hj. fin6 i Hi; fin6 j Hj; reflexivity.
  - repeat split.
  - intros i j Hi [Hj1 Hj2] Hn. fin6 i Hi; fin6 j Hj2; try reflexivity; lia.
Qed.
Lemma crack_por_eval m crd a :
  utils_crack_por m (Fin crd) (Fin a) = Ret (Fin (4/3 * PI * a * crd)).
Proof. unfold utils_crack_por. fls. reteq. field. Qed.

(** Isotropic velocities are the plane-wave speeds in every direction. *)
Lemma V_plane_waves m K G rho : 0 < rho -> 0 <= K + 4/3*G -> 0 <= G ->
  exists vp vs C, utils_V m (Fin K) (Fin G) (Fin rho) = Ret (Fin vp, Fin vs) /\ utils_write_iso m (Fin K) (Fin G) = Ret (finmat C) /\
  forall n, sum3 (fun i => n i^2) = 1 -> phase_velocities C rho n (vp / 1000) (vs / 1000) (vs / 1000) /\
    (forall i, (i < 3)%nat -> sum3 (fun k => christoffel C n i k * n k) = rho * (vp / 1000)^2 * n i) /\
    (forall u, sum3 (fun k => u k * n k) = 0 -> forall i, (i < 3)%nat -> sum3 (fun k => christoffel C n i k * u k) = rho * (vs / 1000)^2 * u i).
Proof.
  intros Hr H1 H2. do 3 eexists. split; [apply V_eval; auto|]. split; [apply write_iso_eval|]. intros n Hn.
  assert (P1 : rho * (sqrt ((K + 4/3 * G) / rho) * 1000 / 1000)^2 = K + 4/3 * G).
  { replace (sqrt ((K + 4/3 * G) / rho) * 1000 / 1000) with (sqrt ((K + 4/3 * G) / rho)) by lra.
    rewrite pow2_sqrt by (apply Rmult_le_pos; [lra|left; apply Rinv_0_lt_compat; lra]). field. lra. }
  assert (P2 : rho * (sqrt (G / rho) * 1000 / 1000)^2 = G).
  { replace (sqrt (G / rho) * 1000 / 1000) with (sqrt (G / rho)) by lra.
    rewrite pow2_sqrt by (apply Rmult_le_pos; [lra|left; apply Rinv_0_lt_compat; lra]). field. lra. }
  unfold phase_velocities. rewrite P1, P2.
  assert (Q : forall i k, (i < 3)%nat -> (k < 3)%nat -> christoffel (iso K G) n i k = (K + G / 3) * (n i * n k) + G * kron i k).
  { intros i k Hi Hk. unfold sum3 in Hn. replace (G * kron i k) with (G * (n 0%nat^2 + n 1%nat^2 + n 2%nat^2) * kron i k) by (rewrite Hn; ring).
    fin3 i; fin3 k; unfold christoffel, tensor, sum3, iso, vti, ofrows, kron; cbn [vgt nth Nat.eqb]; field. }
  split; [|split].
  - split; [|split; [|split]]; try (apply Rmult_le_pos; [apply Rmult_le_pos; [apply sqrt_pos|lra]|lra]).
    intros x. unfold det3. rewrite !Q by lia. unfold kron. cbn [Nat.eqb]. unfold sum3 in Hn.
    set (a := n 0%nat) in *. set (b := n 1%nat) in *. set (c := n 2%nat) in *. clearbody a b c.
    transitivity ((G - x) * (G - x) * ((K + G / 3) * (a^2 + b^2 + c^2) + (G - x))); [field|]. rewrite Hn. field.
  - intros i Hi. unfold sum3. rewrite !Q by lia. unfold sum3 in Hn.
    transitivity ((K + G / 3) * n i * (n 0%nat^2 + n 1%nat^2 + n 2%nat^2) + G * n i); [|rewrite Hn; field].
    fin3 i; unfold kron; cbn [Nat.eqb]; field.
  - intros u Hu i Hi. unfold sum3. rewrite !Q by lia. unfold sum3 in Hu.
    transitivity ((K + G / 3) * n i * (u 0%nat * n 0%nat + u 1%nat * n 1%nat + u 2%nat * n 2%nat) + G * u i); [|rewrite Hu; field].
    fin3 i; unfold kron; cbn [Nat.eqb]; field.
Qed.
