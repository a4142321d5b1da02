(** * EM: corollaries in the form used by the property theorems. *)
From Verif Require Import Fl M_Utils M_EM Spec RealLemmas L_Lists L_Utils L_EM1 L_EM2 L_EM3 L_EM4 L_EM5 L_EM6.
Open Scope R_scope.

(** Tensors determine the matrix. *)
Definition vpair (i : nat) : nat * nat :=
  match i with 0 => (0, 0) | 1 => (1, 1) | 2 => (2, 2) | 3 => (1, 2) | 4 => (0, 2) | _ => (0, 1) end%nat.
Lemma tensor_eq C C' : (forall i j k l, ax4 i j k l -> tensor C i j k l = tensor C' i j k l) -> finmat C = finmat C'.
Proof.
  intros H. apply finmat_ext. intros i j Hi Hj.
  assert (E : forall a, (a < 6)%nat -> vgt (fst (vpair a)) (snd (vpair a)) = a /\ (fst (vpair a) < 3)%nat /\ (snd (vpair a) < 3)%nat).
  { intros a Ha. fin6 a Ha; cbn; repeat split; lia. }
  destruct (E i Hi) as (E1 & A1 & A2). destruct (E j Hj) as (E2 & B1 & B2).
  specialize (H (fst (vpair i)) (snd (vpair i)) (fst (vpair j)) (snd (vpair j))). unfold tensor in H. rewrite E1, E2 in H.
  apply H. repeat split; assumption.
Qed.
Lemma finmat_inj A B : finmat A = finmat B -> meq6 A B.
Proof.
  intros E i j Hi Hj. unfold finmat, tab6 in E. cbn [map seq] in E. injection E. intros.
  fin6 i Hi; fin6 j Hj; assumption.
Qed.

Lemma ti_ortho c11 c22 c33 c12 c13 c23 c44 c55 c66 :
  transversely_isotropic 2 (ortho c11 c22 c33 c12 c13 c23 c44 c55 c66) -> c11 + c22 - 2 * c12 = 4 * c66.
Proof.
  intros T.
  assert (O : orthogonal (rot3 (PI/4))).
  { intros i j Hi Hj. assert (X := sin2_cos2 (PI/4)). unfold Rsqr in X. fin3 i; fin3 j; unfold rot3, rows, sum3, kron; cbn; lra. }
  assert (Fx : fixes (rot3 (PI/4)) 2) by (intros i Hi; fin3 i; unfold rot3, rows, kron; cbn; lra).
  specialize (T _ O Fx 0%nat 1%nat 0%nat 1%nat ltac:(lia) ltac:(lia) ltac:(lia) ltac:(lia)).
  clear O Fx. revert T. unfold rotated, sum3, tensor, rot3, rows. cbn [nth vgt].
  rewrite cos_PI4, sin_PI4. assert (R2 : (1 / sqrt 2) * (1 / sqrt 2) = 1/2).
  { assert (0 < sqrt 2) by (apply sqrt_lt_R0; lra). rewrite <- (sqrt_sqrt 2) at 3 by lra. field. lra. }
  set (r := 1 / sqrt 2) in *. clearbody r. unfold ortho, ofrows; cbn [nth].
  assert (R4 : (r * r) * (r * r) = 1/4) by (rewrite R2; field).
  intros T. match type of T with ?x = _ => replace x with ((r*r) * (r*r) * (c11 + c22 - 2*c12)) in T by ring end.
  rewrite R4 in T. lra.
Qed.
Section H.
Variables (m : mode) (K G Ki Gi al : R).
Hypothesis Hh : host K G Ki Gi al.
Let lam := K - 2/3 * G.
Lemma hf : 0 < G /\ 0 <> al /\ 0 < lam + G /\ 0 < lam + 2*G /\ 0 < 3 * lam + 4 * G /\
  0 <= (Ki + 4 * Gi / 3) * (lam + 2 * G) / (PI * al * G * (lam + G)) /\
  0 <= 4 * Gi * (lam + G) / (PI * al * G * (3 * lam + 4 * G)) /\
  PI * al * G * (lam + G) <> 0 /\ PI * al * G * (3 * lam + 4 * G) <> 0 /\ G^2 <> 0.
Proof. exact (host_facts2 K G Ki Gi al Hh). Qed.
Lemma lamE : K - 2 * G / 3 = lam.
Proof. unfold lam. field. Qed.
Lemma U1_pos : 0 < penny_U1 lam G Gi al.
Proof.
  destruct hf as (HG & Hal & Hl1 & Hl2 & Hl3 & Hk & HM & N1 & N2 & N3). 
  unfold penny_U1. rewrite <- hudson_M by lra. pos.
Qed.
Lemma U3_pos : 0 < penny_U3 lam G Ki Gi al.
Proof.
  destruct hf as (HG & Hal & Hl1 & Hl2 & Hl3 & Hk & HM & N1 & N2 & N3). 
  unfold penny_U3. rewrite <- hudson_kapa by lra. pos.
Qed.
(** No cracks: the host. *)
Lemma hudson_zero order : (order = 1 \/ order = 2)%Z ->
  EM_hudson m (Fin K) (Fin G) (Fin Ki) (Fin Gi) (Fin al) (Fin 0) order 3 = utils_write_iso m (Fin K) (Fin G) /\
  EM_hudson m (Fin K) (Fin G) (Fin Ki) (Fin Gi) (Fin al) (Fin 0) order 1 = utils_write_iso m (Fin K) (Fin G).
Proof.
  intros Ho. destruct hf as (HG & Hal & Hl1 & Hl2 & Hl3 & Hk & HM & N1 & N2 & N3). 
  rewrite !(hudson_eval m K G Ki Gi al 0 Hh order _ Ho). cbv zeta. cbn [Z.eqb Pos.eqb]. rewrite write_iso_eval. fold lam.
  split; apply f_equal, finmat_ext; intros i j Hi Hj; fin6 i Hi; fin6 j Hj; unfold iso, vti, hti, ofrows; cbn [nth]; try reflexivity; 
  unfold lam in *; field; lra.
Qed.
(** Cracks only weaken the rock: for every strain, the first-order strain energy decreases. *)
Lemma hudson_weakens c1 c2 axis : (axis = 3 \/ axis = 1)%Z -> c1 <= c2 -> exists C1 C2,
  EM_hudson m (Fin K) (Fin G) (Fin Ki) (Fin Gi) (Fin al) (Fin c1) 1 axis = Ret (finmat C1) /\
  EM_hudson m (Fin K) (Fin G) (Fin Ki) (Fin Gi) (Fin al) (Fin c2) 1 axis = Ret (finmat C2) /\
  forall e, energy C2 e <= energy C1 e.
Proof.
  intros Ha Hc. destruct hf as (HG & Hal & Hl1 & Hl2 & Hl3 & Hk & HM & N1 & N2 & N3). 
  assert (P1 := U1_pos). assert (P3 := U3_pos).
  rewrite !(hudson_eval m K G Ki Gi al _ Hh 1 axis (or_introl eq_refl)). cbv zeta. rewrite ?lamE.
  set (U1 := penny_U1 lam G Gi al) in *. set (U3 := penny_U3 lam G Ki Gi al) in *. clearbody U1 U3 lam.
  assert (PG : 0 < / G) by pos.
  destruct Ha as [-> | ->]; cbn [Z.eqb Pos.eqb d2]; do 2 eexists; (split; [reflexivity|]); (split; [reflexivity|]); intros e;
    apply Rminus_le; unfold energy, sum6, vti, hti, ofrows; cbn [nth].
  - match goal with |- ?x <= 0 => replace x with (- ((c2 - c1) / G * (U3 * (lam * (e 0%nat + e 1%nat) + (lam + 2*G) * e 2%nat)^2 + G^2 * U1 * ((e 3%nat)^2 + (e 4%nat)^2)))) by (field; lra) end.
    assert (0 <= (c2 - c1) / G) by (apply Rmult_le_pos; lra).
    assert (0 <= U3 * (lam * (e 0%nat + e 1%nat) + (lam + 2*G) * e 2%nat)^2) by (apply Rmult_le_pos; [lra|apply pow2_ge_0]).
    assert (0 <= G^2 * U1 * ((e 3%nat)^2 + (e 4%nat)^2)).
    { assert (Q1 := pow2_ge_0 (e 3%nat)). assert (Q2 := pow2_ge_0 (e 4%nat)). apply Rmult_le_pos; [left; pos|lra]. }
    assert (0 <= (c2 - c1) / G * (U3 * (lam * (e 0%nat + e 1%nat) + (lam + 2*G) * e 2%nat)^2 + G^2 * U1 * ((e 3%nat)^2 + (e 4%nat)^2))) by (apply Rmult_le_pos; lra).
    lra.
  - match goal with |- ?x <= 0 => replace x with (- ((c2 - c1) / G * (U3 * ((lam + 2*G) * e 0%nat + lam * (e 1%nat + e 2%nat))^2 + G^2 * U1 * ((e 4%nat)^2 + (e 5%nat)^2)))) by (field; lra) end.
    assert (0 <= (c2 - c1) / G) by (apply Rmult_le_pos; lra).
    assert (0 <= U3 * ((lam + 2*G) * e 0%nat + lam * (e 1%nat + e 2%nat))^2) by (apply Rmult_le_pos; [lra|apply pow2_ge_0]).
    assert (0 <= G^2 * U1 * ((e 4%nat)^2 + (e 5%nat)^2)).
    { assert (Q1 := pow2_ge_0 (e 4%nat)). assert (Q2 := pow2_ge_0 (e 5%nat)). apply Rmult_le_pos; [left; pos|lra]. }
    assert (0 <= (c2 - c1) / G * (U3 * ((lam + 2*G) * e 0%nat + lam * (e 1%nat + e 2%nat))^2 + G^2 * U1 * ((e 4%nat)^2 + (e 5%nat)^2))) by (apply Rmult_le_pos; lra).
    lra.
Qed.
(** Random cracks: the shear modulus is not the orientation average. *)
Lemma hudson_rand_wrong crd : crd <> 0 -> exists C Ke Ge,
    EM_hudson m (Fin K) (Fin G) (Fin Ki) (Fin Gi) (Fin al) (Fin crd) 1 3 = Ret (finmat C) /\
    EM_hudson_rand m (Fin K) (Fin G) (Fin Ki) (Fin Gi) (Fin al) (Fin crd) = Ret (Fin Ke, Fin Ge) /\
    Ge <> iso_G C.
Proof.
  intros Hc. destruct (hudson_rand_spec m K G Ki Gi al crd Hh) as (C & Ke & Ge & E1 & E2 & _ & E4).
  exists C, Ke, Ge. split; [exact E1|]. split; [exact E2|].
  assert (E5 := hudson_rand_eval m K G Ki Gi al crd Hh). rewrite E2 in E5. injection E5 as _ E6. fold lam in E6.
  destruct hf as (HG & _). assert (P1 := U1_pos). assert (P3 := U3_pos).
  intros Q. rewrite <- Q in E4. assert (Ge - G = 0) by lra.
  assert (2 * G * crd * (3 * penny_U1 lam G Gi al + 2 * penny_U3 lam G Ki Gi al) = 0) by lra.
  apply Rmult_integral in H0. destruct H0; [|lra]. apply Rmult_integral in H0. destruct H0; lra.
Qed.
(** One of the three orthogonal sets alone. *)
Lemma hudson_ortho_single c (al' : R) : 0 < al' ->
  EM_hudson_ortho m (Fin K) (Fin G) (Fin Ki) (Fin Gi) (Fin al', Fin al', Fin al) (Fin 0, Fin 0, Fin c)
  = EM_hudson m (Fin K) (Fin G) (Fin Ki) (Fin Gi) (Fin al) (Fin c) 1 3 /\
  EM_hudson_ortho m (Fin K) (Fin G) (Fin Ki) (Fin Gi) (Fin al, Fin al', Fin al') (Fin c, Fin 0, Fin 0)
  = EM_hudson m (Fin K) (Fin G) (Fin Ki) (Fin Gi) (Fin al) (Fin c) 1 1.
Proof.
  intros Ha. destruct Hh as (HK & HG & HKi & HGi & Hal).
  split.
  - destruct (hudson_ortho_spec m K G Ki Gi (fun a => nth a [al'; al'; al] 0) (fun a => nth a [0; 0; c] 0)) as (C0 & C & E0 & E1 & E2).
    { intros a Hlt. fin3 a; cbn; repeat split; assumption. }
    destruct (hudson_spec m K G Ki Gi al c Hh 1 3 2 (or_introl eq_refl) (or_introl (conj eq_refl eq_refl))) as (C0' & C' & F0 & F1 & F2).
    assert (Q : finmat C0' = finmat C0) by congruence. apply finmat_inj in Q.
    cbn [nth] in E1. rewrite E1, F1. f_equal. apply tensor_eq. intros i j k l A. rewrite (E2 i j k l A), (F2 i j k l A).
    assert (T : forall i j k l, ax4 i j k l -> tensor C0' i j k l = tensor C0 i j k l).
    { intros a b c' d _. unfold tensor. apply Q; unfold vgt; destruct a as [|[|[|]]], b as [|[|[|]]], c' as [|[|[|]]], d as [|[|[|]]]; cbn; lia. }
    rewrite T by exact A. cbn [Z.eqb Pos.eqb]. unfold sum3 at 1. cbn [nth]. fold lam.
    assert (L : crack_loss C0' (penny_U1 lam G Gi al) (penny_U3 lam G Ki Gi al) (axis_dir 2) i j k l
              = crack_loss C0 (penny_U1 lam G Gi al) (penny_U3 lam G Ki Gi al) (axis_dir 2) i j k l).
    { destruct A as (A1 & A2 & A3 & A4). unfold crack_loss, traction, sum3. rewrite !T by (repeat split; lia). reflexivity. }
    rewrite L. unfold Rdiv. ring.
  - destruct (hudson_ortho_spec m K G Ki Gi (fun a => nth a [al; al'; al'] 0) (fun a => nth a [c; 0; 0] 0)) as (C0 & C & E0 & E1 & E2).
    { intros a Hlt. fin3 a; cbn; repeat split; assumption. }
    destruct (hudson_spec m K G Ki Gi al c Hh 1 1 0 (or_introl eq_refl) (or_intror (conj eq_refl eq_refl))) as (C0' & C' & F0 & F1 & F2).
    assert (Q : finmat C0' = finmat C0) by congruence. apply finmat_inj in Q.
    cbn [nth] in E1. rewrite E1, F1. f_equal. apply tensor_eq. intros i j k l A. rewrite (E2 i j k l A), (F2 i j k l A).
    assert (T : forall i j k l, ax4 i j k l -> tensor C0' i j k l = tensor C0 i j k l).
    { intros a b c' d _. unfold tensor. apply Q; unfold vgt; destruct a as [|[|[|]]], b as [|[|[|]]], c' as [|[|[|]]], d as [|[|[|]]]; cbn; lia. }
    rewrite T by exact A. cbn [Z.eqb Pos.eqb]. unfold sum3 at 1. cbn [nth]. fold lam.
    assert (L : crack_loss C0' (penny_U1 lam G Gi al) (penny_U3 lam G Ki Gi al) (axis_dir 0) i j k l
              = crack_loss C0 (penny_U1 lam G Gi al) (penny_U3 lam G Ki Gi al) (axis_dir 0) i j k l).
    { destruct A as (A1 & A2 & A3 & A4). unfold crack_loss, traction, sum3. rewrite !T by (repeat split; lia). reflexivity. }
    rewrite L. unfold Rdiv. ring.
Qed.
Lemma hudson_cone_zero crd :
  EM_hudson_cone m (Fin K) (Fin G) (Fin Ki) (Fin Gi) (Fin al) (Fin crd) (Fin 0)
  = EM_hudson m (Fin K) (Fin G) (Fin Ki) (Fin Gi) (Fin al) (Fin crd) 1 3.
Proof.
  destruct hf as (HG & Hal & Hl1 & Hl2 & Hl3 & Hk & HM & N1 & N2 & N3). 
  assert (E := hudson_cone_eval m K G Ki Gi al crd 0 Hh). cbv zeta in E. rewrite E.
  rewrite (hudson_eval m K G Ki Gi al crd Hh 1 3 (or_introl eq_refl)). cbv zeta. cbn [Z.eqb Pos.eqb d2]. rewrite ?lamE. fold lam.
  replace (0 * PI / 180) with 0 by field. rewrite sin_0, cos_0.
  f_equal. apply finmat_ext. intros i j Hi Hj. fin6 i Hi; fin6 j Hj; unfold ortho, vti, ofrows; cbn [nth]; try reflexivity; field; lra.
Qed.
(** The cone's C66 breaks transverse isotropy. *)
Lemma hudson_cone_wrong crd deg : crd <> 0 -> sin (deg * PI / 180) <> 0 -> exists C,
  EM_hudson_cone m (Fin K) (Fin G) (Fin Ki) (Fin Gi) (Fin al) (Fin crd) (Fin deg) = Ret (finmat C) /\
  C 0%nat 0%nat - C 0%nat 1%nat <> 2 * C 5%nat 5%nat /\ ~ transversely_isotropic 2 C.
Proof.
  intros Hc Hs. destruct hf as (HG & Hal & Hl1 & Hl2 & Hl3 & Hk & HM & N1 & N2 & N3). 
  assert (E := hudson_cone_eval m K G Ki Gi al crd deg Hh). cbv zeta in E. rewrite E. clear E. rewrite ?lamE. fold lam.
  assert (P3 := U3_pos). set (U1 := penny_U1 lam G Gi al) in *. set (U3 := penny_U3 lam G Ki Gi al) in *. clearbody U1 U3 lam.
  set (s := sin (deg * PI / 180)) in *. set (c := cos (deg * PI / 180)) in *. clearbody s c.
  eexists. split; [reflexivity|].
  match goal with |- ?A /\ _ => assert (N : A) end.
  { unfold ortho, ofrows; cbn [nth]. intros Q. apply Rminus_diag_eq in Q.
    match type of Q with ?x = 0 => replace x with (3 * crd * G * U3 * s^4) in Q by (field; lra) end.
    assert (s^4 <> 0) by (apply pow_nonzero; auto).
    apply Rmult_integral in Q as [Q|Q]; [|contradiction]. apply Rmult_integral in Q as [Q|Q]; [|lra].
    apply Rmult_integral in Q as [Q|Q]; [|lra]. lra. }
  split; [exact N|]. intros T. apply ti_ortho in T. apply N. unfold ortho, ofrows; cbn [nth]. lra.
Qed.
End H.

(** ** Eshelby-Cheng without porosity *)
Lemma esh_phi0 m K G al Kf c11 c33 c13 c44 c66 : 0 < K -> 0 < G -> 0 < al < 1 -> K <> Kf ->
  EM_Eshelby_Cheng m (Fin K) (Fin G) (Fin 0) (Fin al) (Fin Kf) false
    = Ret (EC_array (Fin c11) (Fin c33) (Fin c13) (Fin c44) (Fin c66)) ->
  c11 = K + 4/3*G /\ c33 = K + 4/3*G /\ c13 = K - 2/3*G /\ c44 = G /\ c66 = G.
Proof.
  intros HK HG Ha HN E. destruct (esh_main m K G 0 al Kf HK HG Ha HN _ _ _ _ _ E) as ((N1 & E1) & (N2 & E2) & (e2 & H2) & F2 & (e0 & H0) & F0).
  destruct (F2 e2 H2) as (A1 & A2). destruct (F0 e0 H0) as (A3 & A4).
  rewrite Rmult_0_l in *. apply Rmult_integral in E1 as [E1|E1]; [|contradiction]. apply Rmult_integral in E2 as [E2|E2]; [|contradiction].
  repeat split; lra.
Qed.
Definition ecp (x1 x2 x3 x4 x5 : fl) (M l g phi : R) : outcome ec_res :=
    let! C11_1 := x1 in
    let! C33_1 := x2 in
    let! C13_1 := x3 in
    let! C44_1 := x4 in
    let! C66_1 := x5 in
    let! C11 := fsub (Fin M) (fmul (Fin phi) C11_1) in
    let! C13 := fsub (Fin l) (fmul (Fin phi) C13_1) in
    let! C33 := fsub (Fin M) (fmul (Fin phi) C33_1) in
    let! C44 := fsub (Fin g) (fmul (Fin phi) C44_1) in
    let! C66 := fsub (Fin g) (fmul (Fin phi) C66_1) in
    Ret (EC_array C11 C33 C13 C44 C66).
Lemma ecp_affine x1 x2 x3 x4 x5 M l g p q t a11 a33 a13 a44 a66 b11 b33 b13 b44 b66 :
  ecp x1 x2 x3 x4 x5 M l g p = Ret (EC_array (Fin a11) (Fin a33) (Fin a13) (Fin a44) (Fin a66)) ->
  ecp x1 x2 x3 x4 x5 M l g q = Ret (EC_array (Fin b11) (Fin b33) (Fin b13) (Fin b44) (Fin b66)) ->
  let mix x y := (1 - t) * x + t * y in
  ecp x1 x2 x3 x4 x5 M l g (mix p q) =
  Ret (EC_array (Fin (mix a11 b11)) (Fin (mix a33 b33)) (Fin (mix a13 b13)) (Fin (mix a44 b44)) (Fin (mix a66 b66))).
Proof.
  intros E1 E2 mix. unfold ecp in *.
  repeat (apply bind_inv in E1; cbv beta in E1). repeat (apply bind_inv in E2; cbv beta in E2).
  injection E1 as A1 A2 A3 A4 A5. injection E2 as B1 B2 B3 B4 B5.
  apply sub_mul_inv in A1 as (r1 & R1 & ->). apply sub_mul_inv in A2 as (r2 & R2 & ->). apply sub_mul_inv in A3 as (r3 & R3 & ->).
  apply sub_mul_inv in A4 as (r4 & R4 & ->). apply sub_mul_inv in A5 as (r5 & R5 & ->).
  rewrite R1, R2, R3, R4, R5 in *. rewrite !bind_fin. rewrite !fmul_fin, !fsub_fin in *. rewrite !bind_fin.
  injection B1 as <-. injection B2 as <-. injection B3 as <-. injection B4 as <-. injection B5 as <-.
  unfold mix. f_equal. f_equal; f_equal; ring.
Qed.

Lemma esh_affine m K G al Kf p q t a11 a33 a13 a44 a66 b11 b33 b13 b44 b66 : 0 < K -> 0 < G -> 0 < al < 1 -> K <> Kf ->
  EM_Eshelby_Cheng m (Fin K) (Fin G) (Fin p) (Fin al) (Fin Kf) false
    = Ret (EC_array (Fin a11) (Fin a33) (Fin a13) (Fin a44) (Fin a66)) ->
  EM_Eshelby_Cheng m (Fin K) (Fin G) (Fin q) (Fin al) (Fin Kf) false
    = Ret (EC_array (Fin b11) (Fin b33) (Fin b13) (Fin b44) (Fin b66)) ->
  let mix x y := (1 - t) * x + t * y in
  EM_Eshelby_Cheng m (Fin K) (Fin G) (Fin (mix p q)) (Fin al) (Fin Kf) false
    = Ret (EC_array (Fin (mix a11 b11)) (Fin (mix a33 b33)) (Fin (mix a13 b13)) (Fin (mix a44 b44)) (Fin (mix a66 b66))).
Proof.
  intros HK HG Ha HN E1 E2 mix.
  rewrite (esh_eval m K G p al Kf HK HG Ha HN) in E1. rewrite (esh_eval m K G q al Kf HK HG Ha HN) in E2.
  rewrite (esh_eval m K G (mix p q) al Kf HK HG Ha HN). cbv zeta in *.
  exact (ecp_affine _ _ _ _ _ _ _ _ p q t _ _ _ _ _ _ _ _ _ _ E1 E2).
Qed.

(** ** PQ_vectorize overwrites the caller's array *)
Lemma PQ_vec_inv dt Km Gm Ki Gi al r al' :
  EM_PQ_vectorize dt Km Gm Ki Gi al = Ret (r, al') ->
  al' = map (fun a => if Req_EM_T a 1 then match dt with DFloat => 0.999 | DInt => 0 end else a) al.
Proof.
  unfold EM_PQ_vectorize. destruct (EM_PQ_elems _ _ _ _ _ _) as [x|e|]; cbn [call]; intros E; try discriminate.
  injection E as _ <-. reflexivity.
Qed.
Lemma PQ_vec_mutates dt Km Gm Ki Gi al r al' :
  EM_PQ_vectorize dt Km Gm Ki Gi al = Ret (r, al') -> (al' = al <-> ~ In 1 al) /\ ~ In 1 al'.
Proof.
  intros E. apply PQ_vec_inv in E. subst al'. split.
  - induction al as [|a al IH]; [cbn; tauto|]. cbn [map In]. destruct (Req_EM_T a 1) as [->|N].
    + split; [|tauto]. intros E. injection E as E _. destruct dt; dec; lra.
    + split.
      * intros E. injection E as E. apply IH in E. intros [Q|Q]; [congruence|tauto].
      * intros Q. f_equal. apply IH. tauto.
  - intros H. apply in_map_iff in H as (a & E & _). destruct (Req_EM_T a 1) as [->|N]; [|congruence].
    destruct dt; dec; lra.
Qed.
Lemma PQ_vec_example : exists r al',
  EM_PQ_vectorize DFloat (Fin 37) (Fin 44) [Fin 37] [Fin 44] [1] = Ret (r, al') /\ al' <> [1].
Proof.
  assert (E := fun e => PQ_elems_equal_G 44 37 ltac:(lra) ltac:(lra) e [(1, 37, 0.999)]).
  cbn [map fst snd] in E. unfold EM_PQ_vectorize, EM_PQ_clobber. cbn [map]. destruct (Req_EM_T 1 1); [|lra].
  rewrite E. 2:{ intros p [<-|[]]. cbn [fst snd]. dec; lra. }
  rewrite call_ret. do 2 eexists. split; [reflexivity|]. intros Q. injection Q as Q. dec; lra.
Qed.

(** ** A root of the self-consistent equations lies between the phases *)
Lemma sum_zero_between (L : list (R * R * R)) Ks :   (* (x, K, P) *)
  Forall (fun p => 0 <= fst (fst p)) L -> 0 < sumf (fun p => fst (fst p)) L -> Forall (fun p => 0 < snd p) L ->
  sumf (fun p => fst (fst p) * (snd (fst p) - Ks) * snd p) L = 0 ->
  between_some (map (fun p => snd (fst p)) L) Ks.
Proof.
  intros Hx Hs HP E.
  assert (W : Forall (fun p => 0 <= fst (fst p) * snd p) L).
  { rewrite Forall_forall in *. intros p Hp. apply Rmult_le_pos; [apply Hx; auto|left; apply HP; auto]. }
  assert (S : 0 < sumf (fun p => fst (fst p) * snd p) L) by (apply sumf_pos_mul; auto).
  assert (Q : sumf (fun p => fst (fst p) * snd p * snd (fst p)) L = Ks * sumf (fun p => fst (fst p) * snd p) L).
  { apply Rminus_diag_uniq. rewrite <- sumf_scal, <- sumf_minus. rewrite <- E. apply sumf_ext_all. intros; ring. }
  split; unfold above_some, below_some; rewrite Exists_map.
  - apply (wmean_below (fun p => fst (fst p) * snd p) (fun p => snd (fst p)) L Ks W S Q).
  - apply (wmean_above (fun p => fst (fst p) * snd p) (fun p => snd (fst p)) L Ks W S Q).
Qed.
Lemma zip3 (xs ks ps : list R) : length xs = length ks -> length ks = length ps ->
  exists L : list (R * R * R), xs = map (fun p => fst (fst p)) L /\ ks = map (fun p => snd (fst p)) L /\ ps = map snd L.
Proof.
  revert ks ps. induction xs as [|x xs IH]; intros [|k ks] [|p ps] H1 H2; cbn in *; try lia.
  - exists []. auto.
  - destruct (IH ks ps) as (L & -> & -> & ->); [lia|lia|]. exists ((x, k, p) :: L). auto.
Qed.
Lemma PQ_elems_len e0 Km Gm Ki Gi al P Q : EM_PQ_elems e0 Km Gm Ki Gi al = Ret (P, Q) ->
  length P = length Ki /\ length Q = length Ki /\ length Gi = length Ki /\ length al = length Ki.
Proof.
  revert Gi al P Q. induction Ki as [|k Ki IH]; intros [|g Gi] [|a al] P Q E; cbn in E; try discriminate.
  - injection E as <- <-. auto.
  - destruct (EM_PQ_elem _ _ _ _ _) as [[p q]|e|]; cbn [call] in E; try discriminate.
    destruct (EM_PQ_elems e0 Km Gm Ki Gi al) as [[P' Q']|e|] eqn:E2; cbn [call] in E; try discriminate.
    injection E as <- <-. destruct (IH _ _ _ _ E2) as (A & B & C & D). cbn. auto.
Qed.
Lemma Berryman_between dt Ks Gs (xs ks gs : list R) al al1 (P Q : list R) :
  length xs = length ks -> fractions xs ->
  EM_PQ_vectorize dt (Fin Ks) (Fin Gs) (map Fin ks) (map Fin gs) al = Ret ((map Fin P, map Fin Q), al1) ->
  Forall (Rlt 0) P -> Forall (Rlt 0) Q ->
  EM_Berryman_func dt (Fin Ks) (Fin Gs) (map Fin ks) (map Fin gs) (map Fin xs) al = Ret ((Fin 0, Fin 0), al1) ->
  between_some ks Ks /\ between_some gs Gs.
Proof.
  intros Hl [Hx Hs] E HP HQ B. unfold EM_Berryman_func in B. rewrite E in B. cbn [call] in B.
  unfold EM_PQ_vectorize in E. destruct (EM_PQ_elems _ _ _ _ _ _) as [[P' Q']|e|] eqn:E2; cbn [call] in E; try discriminate.
  injection E as -> -> _. apply PQ_elems_len in E2 as (L1 & L2 & L3 & L4). rewrite !map_length in *.
  repeat (cbn [call] in B; cbv beta in B;
    first [rewrite np_bc_eq in B by (rewrite ?fmap2_length by (rewrite ?map_length; lia); rewrite ?map_length; lia)
          | apply bind_inv in B]). injection B as B1 B2.
  split.
  - destruct (zip3 xs ks P) as (L & -> & -> & ->); [lia|lia|].
    rewrite !map_map in B1. rewrite !fmap2_map in B1.
    assert (F : forall M : list (R * R * R), map (fun x => fmul (fmul (Fin (fst (fst x))) (fsub (Fin (snd (fst x))) (Fin Ks))) (Fin (snd x))) M
       = map (fun x => Fin (fst (fst x) * (snd (fst x) - Ks) * snd x)) M) by reflexivity.
    rewrite F, fsum_map in B1. injection B1 as B1.
    apply sum_zero_between; [rewrite Forall_map in Hx; exact Hx| |rewrite Forall_map in HP; exact HP|exact B1].
    unfold sumf. rewrite Hs. lra.
  - destruct (zip3 xs gs Q) as (L & E1 & -> & ->); [lia|lia|]. rewrite E1 in *.
    rewrite !map_map in B2. rewrite !fmap2_map in B2.
    assert (F : forall M : list (R * R * R), map (fun x => fmul (fmul (Fin (fst (fst x))) (fsub (Fin (snd (fst x))) (Fin Gs))) (Fin (snd x))) M
       = map (fun x => Fin (fst (fst x) * (snd (fst x) - Gs) * snd x)) M) by reflexivity.
    rewrite F, fsum_map in B2. injection B2 as B2.
    apply sum_zero_between; [rewrite Forall_map in Hx; exact Hx| |rewrite Forall_map in HQ; exact HQ|exact B2].
    unfold sumf. rewrite Hs. lra.
Qed.
(** Equal shear moduli: residual zero exactly at Hill's bulk modulus, for every aspect ratio. *)
Lemma Berryman_Hill dt G Ks (L : list (R * R * R)) : 0 < G -> 0 < Ks ->
  Forall (fun p => 0 <= fst (fst p)) L ->
  Forall (fun p => 0 <= snd (fst p)) L -> Forall (fun p => 0 < snd p) L -> sumf (fun p => fst (fst p)) L = 1 ->
  exists res al',
  EM_Berryman_func dt (Fin Ks) (Fin G) (map (fun p => Fin (snd (fst p))) L) (map (fun _ => Fin G) L)
    (map (fun p => Fin (fst (fst p))) L) (map snd L) = Ret ((Fin res, Fin 0), al') /\
  (res = 0 <-> 1 / (Ks + 4/3*G) = sumf (fun p => fst (fst p) / (snd (fst p) + 4/3*G)) L).
Proof.
  intros HG HK Hx H1 H2 Hs.
  destruct (Berryman_equal_G G Ks HG HK dt L) as (al' & E).
  { rewrite Forall_forall in *. auto. }
  eexists. exists al'. split; [exact E|]. rewrite (Hill_root G Ks HG HK L); [| |exact Hs].
  2:{ rewrite Forall_forall in *. auto. }
  split; intros Q.
  - apply Rmult_eq_reg_l with (Ks + 4/3*G); [|lra]. rewrite Q. field. lra.
  - rewrite <- Q. field. lra.
Qed.
(** Identical phases: the phase itself is a root. *)
Lemma Berryman_same dt K G (L : list (R * R)) : 0 < K -> 0 < G -> Forall (fun p => 0 < snd p) L -> exists al',
  EM_Berryman_func dt (Fin K) (Fin G) (map (fun _ => Fin K) L) (map (fun _ => Fin G) L) (map (fun p => Fin (fst p)) L) (map snd L)
  = Ret ((Fin 0, Fin 0), al').
Proof.
  intros HK HG H. destruct (Berryman_equal_G G K HG HK dt (map (fun p => (fst p, K, snd p)) L)) as (al' & E).
  { intros p Hp. apply in_map_iff in Hp as (q & <- & Hq). cbn [fst snd]. rewrite Forall_forall in H. split; [lra|auto]. }
  rewrite !map_map in E. cbn [fst snd] in E. exists al'. etransitivity; [exact E|]. do 4 f_equal.
  unfold sumf. rewrite map_map. cbn [fst snd]. clear. induction L as [|x L IH]; [reflexivity|]. cbn [map sumR]. rewrite IH. ring.
Qed.
