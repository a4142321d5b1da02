(** * Eshelby-Cheng. *)
From Verif Require Import Fl M_Utils M_EM Spec RealLemmas L_Utils.
Open Scope R_scope.

(** Inversion: a finite result comes from finite parts. *)
Lemma bind_inv {B} x (k : fl -> outcome B) v : bind x k = Ret v -> k x = Ret v.
Proof. destruct x; simpl; congruence. Qed.
Lemma sub_mul_inv a b x c : fsub (Fin a) (fmul (Fin b) x) = Fin c -> exists r, x = Fin r /\ c = a - b * r.
Proof.
  destruct x; simpl; try discriminate; try (destruct (Req_EM_T b 0); discriminate).
  intros H; injection H; intros <-. eauto.
Qed.
Lemma div_np_inv a b r : fdiv NumPy (Fin a) (Fin b) = Fin r -> b <> 0 /\ r = a / b.
Proof.
  simpl. destruct (Req_EM_T b 0); [destruct (Req_EM_T a 0); discriminate|].
  intros H; injection H; intros <-. auto.
Qed.
Lemma add_inv_r a x r : fadd (Fin a) x = Fin r -> exists b, x = Fin b /\ r = a + b.
Proof. destruct x; simpl; try discriminate. intros H; injection H; intros <-. eauto. Qed.

Lemma bind_rel {A B} (a : A) (o : outcome B) x (k : fl -> outcome A) (l : fl -> outcome B) :
  (forall e, Raise e = Ret a -> Raise e = o) -> (forall v, k v = Ret a -> l v = o) -> bind x k = Ret a -> bind x l = o.
Proof. intros H1 H2. destruct x; simpl; auto. Qed.

(** Normal part: two reduced equations give both strain components. *)
Section Alg.
Variables (S11 S12 S33 S13 S31 C : R).
Let D := S33 * S11 + S33 * S12 - 2 * S31 * S13 - (S11 + S12 + S33 - 1 - 3 * C) - C * (S11 + S12 + 2 * (S33 - S13 - S31)).
Let E := S33 * S11 - S31 * S13 - (S33 + S11 - 2 * C - 1) + C * (S31 + S13 - S11 - S33).
Hypothesis HD : D <> 0.
Lemma esh_cramer a b r1 r2 :
  (1 - S11 - S12 + 2 * S31) * a + (-1 - S13 + S33) * b = r1 ->
  (2 + 6 * C - 2 * (S11 + S12) - 2 * S31) * a + (1 + 3 * C - 2 * S13 - S33) * b = r2 ->
  a = (r1 * (1 + 3 * C - 2 * S13 - S33) - (-1 - S13 + S33) * r2) / (3 * D) /\
  b = ((1 - S11 - S12 + 2 * S31) * r2 - (2 + 6 * C - 2 * (S11 + S12) - 2 * S31) * r1) / (3 * D).
Proof.
  intros E1 E2. split; apply (Rmult_eq_reg_r (3 * D)); try lra; (field_simplify; [|exact HD]);
  subst r1 r2; unfold D; ring.
Qed.
Lemma esh_E : E = ((1 + C - S33) * (1 - S11 + S12) + D) / 2.
Proof. unfold E, D. field. Qed.
End Alg.


Section EC.
Variables (m : mode) (K G phi al Kf : R).
Hypotheses (HK : 0 < K) (HG : 0 < G) (Hal : 0 < al < 1) (HKf : K <> Kf).
Let nu := (3*K - 2*G) / (6*K + 2*G).
Let lam := K - 2/3 * G.
Let S i j := esh_S nu al i j.
Let C := Kf / (3 * (K - Kf)).
Let D := S 2%nat 2%nat * S 0%nat 0%nat + S 2%nat 2%nat * S 0%nat 1%nat - 2 * S 2%nat 0%nat * S 0%nat 2%nat
  - (S 0%nat 0%nat + S 0%nat 1%nat + S 2%nat 2%nat - 1 - 3 * C)
  - C * (S 0%nat 0%nat + S 0%nat 1%nat + 2 * (S 2%nat 2%nat - S 0%nat 2%nat - S 2%nat 0%nat)).
Let E := S 2%nat 2%nat * S 0%nat 0%nat - S 2%nat 0%nat * S 0%nat 2%nat - (S 2%nat 2%nat + S 0%nat 0%nat - 2 * C - 1)
  + C * (S 2%nat 0%nat + S 0%nat 2%nat - S 0%nat 0%nat - S 2%nat 2%nat).

Lemma nu_facts : 6*K + 2*G <> 0 /\ 0 < 1 - nu /\ 0 < 1 - 2 * nu.
Proof.
  assert (0 < 6*K + 2*G) by lra.
  assert (1 - nu = (3*K + 4*G) / (6*K + 2*G)) by (unfold nu; field; lra).
  assert (1 - 2*nu = 6*G / (6*K + 2*G)) by (unfold nu; field; lra).
  split; [lra|]. split; [rewrite H0|rewrite H1]; apply Rdiv_lt_0_compat; lra.
Qed.

Ltac stp v H := match goal with |- bind (Fin ?e) _ = _ => 
  let E := fresh in remember e as v eqn:H; rewrite bind_fin; cbv beta end.

Lemma esh_eval :
  EM_Eshelby_Cheng m (Fin K) (Fin G) (Fin phi) (Fin al) (Fin Kf) false =
    let! C11_1 := fadd (Fin (lam * (S 2%nat 0%nat - S 2%nat 2%nat + 1)))
                    (fdiv NumPy (Fin (2 * G * E)) (Fin (D * (S 0%nat 1%nat - S 0%nat 0%nat + 1)))) in
    let! C33_1 := fdiv NumPy (Fin ((lam + 2 * G) * (- S 0%nat 1%nat - S 0%nat 0%nat + 1) + 2 * lam * S 0%nat 2%nat + 4 * G * C)) (Fin D) in
    let! C13_1 := fdiv NumPy (Fin ((lam + 2 * G) * (S 0%nat 2%nat + S 2%nat 0%nat) - 4 * G * C
                 + lam * (S 0%nat 2%nat - S 0%nat 1%nat - S 0%nat 0%nat - S 2%nat 2%nat + 2))) (Fin (2 * D)) in
    let! C44_1 := fdiv NumPy (Fin G) (Fin (1 - 2 * esh_shear nu al 0 2)) in
    let! C66_1 := fdiv NumPy (Fin G) (Fin (1 - 2 * esh_shear nu al 0 1)) in
    let! C11 := fsub (Fin (lam + 2 * G)) (fmul (Fin phi) C11_1) in
    let! C13 := fsub (Fin lam) (fmul (Fin phi) C13_1) in
    let! C33 := fsub (Fin (lam + 2 * G)) (fmul (Fin phi) C33_1) in
    let! C44 := fsub (Fin G) (fmul (Fin phi) C44_1) in
    let! C66 := fsub (Fin G) (fmul (Fin phi) C66_1) in
    Ret (EC_array C11 C33 C13 C44 C66).
Proof.
  destruct nu_facts as (N1 & N2 & N3). assert (HPI := PI_RGT_0).
  assert (Hsq : 0 < 1 - al^2) by nra.
  set (Sa := sqrt (1 - al^2)).
  assert (HSa : 0 < Sa) by (apply sqrt_lt_R0; lra).
  assert (HS2 : Sa * Sa = 1 - al^2) by (apply sqrt_sqrt; lra).
  unfold EM_Eshelby_Cheng.
  repeat (first [fl1 | rewrite fdiv_fin by lra]; cbv beta). fold nu.
  replace (K - 2 * G / 3) with lam by (unfold lam; field).
  assert (N4 : 8 * PI * (1 - nu) <> 0) by (apply Rgt_not_eq; apply Rmult_lt_0_compat; lra).
  rewrite (fdiv_fin m _ _ N4). rewrite bind_fin; cbv beta.
  set (r := (1 - 2 * nu) / (8 * PI * (1 - nu))). 
  repeat (first [fl1 | rewrite fdiv_fin by lra]; cbv beta).
  set (q := 3 * r / (1 - 2 * nu)).
  rewrite fsqrt_fin by lra. rewrite bind_fin; cbv beta. fold Sa. rewrite farccos_fin by lra.
  assert (N5 : Sa^3 <> 0) by (apply pow_nonzero; lra).
  assert (N6 : 3 * Sa^2 <> 0) by (apply Rmult_integral_contrapositive_currified; [lra|apply pow_nonzero; lra]).
  repeat (first [fl1 | rewrite fdiv_fin by assumption | rewrite fdiv_fin by lra]; cbv beta).
  replace (2 * PI * al * (acos al - al * Sa) / Sa ^ 3) with (esh_I1 al) by reflexivity.
  set (I1 := esh_I1 al).
  assert (Hr : r = (1 - 2*nu) / (8 * PI * (1 - nu))) by reflexivity.
  assert (Hq : q = 3 / (8 * PI * (1 - nu))) by (unfold q; rewrite Hr; field; lra).
  set (Iac := (4 * PI - 2 * I1 - I1) / (3 * Sa^2)).
  assert (HI : esh_II al 0 2 = 3 * Iac).
  { unfold esh_II, rows, esh_I; cbn [nth]. fold I1. unfold Iac. replace (Sa^2) with (1 - al^2) by (rewrite <- HS2; ring). field. lra. }
  assert (HI' : (esh_I al 0 - esh_I al 2) / (al^2 - 1) = 3 * Iac) by exact HI.
  assert (E11 : q * (PI - 3 * Iac / 4) + r * I1 = S 0%nat 0%nat).
  { unfold S, esh_S, esh_II. rewrite HI'. unfold rows, esh_axis, esh_I; cbn [nth Nat.eqb]. fold I1.
    rewrite Hq, Hr. field. lra. }
  assert (E12 : q * ((PI - 3 * Iac / 4) / 3) - r * I1 = S 0%nat 1%nat).
  { unfold S, esh_S, esh_II. rewrite HI'. unfold rows, esh_axis, esh_I; cbn [nth Nat.eqb]. fold I1.
    rewrite Hq, Hr. field. lra. }
  assert (E33 : q * (4 * PI / 3 - 2 * Iac * al^2) + (4 * PI - 2 * I1) * r = S 2%nat 2%nat).
  { unfold S, esh_S, esh_II. rewrite HI'. unfold rows, esh_axis, esh_I; cbn [nth Nat.eqb]. fold I1.
    rewrite Hq, Hr. field. lra. }
  assert (E13 : q * Iac * al^2 - r * I1 = S 0%nat 2%nat).
  { unfold S, esh_S, esh_II. rewrite HI'. unfold rows, esh_axis, esh_I; cbn [nth Nat.eqb]. fold I1.
    rewrite Hq, Hr. field. lra. }
  assert (E31 : q * Iac - r * (4 * PI - 2 * I1) = S 2%nat 0%nat).
  { unfold S, esh_S, esh_II. rewrite HI'. unfold rows, esh_axis, esh_I; cbn [nth Nat.eqb]. fold I1.
    rewrite Hq, Hr. field. lra. }
  assert (E44 : q * (1 + al^2) * Iac / 2 + r * (I1 + (4 * PI - 2 * I1)) / 2 = esh_shear nu al 0 2).
  { unfold esh_shear, esh_II. rewrite HI'. unfold rows, esh_axis, esh_I; cbn [nth Nat.eqb]. fold I1.
    rewrite Hq, Hr. field. lra. }
  assert (E66 : q * ((PI - 3 * Iac / 4) / 3) + r * I1 = esh_shear nu al 0 1).
  { unfold esh_shear, esh_II. rewrite HI'. unfold rows, esh_axis, esh_I; cbn [nth Nat.eqb]. fold I1.
    rewrite Hq, Hr. field. lra. }
  rewrite E11, E12, E33, E13, E31, E44, E66. fold C. fold D E.
  reflexivity.
Qed.

Lemma esh_sym : S 1%nat 2%nat = S 0%nat 2%nat /\ S 2%nat 1%nat = S 2%nat 0%nat /\ S 1%nat 0%nat = S 0%nat 1%nat /\ S 1%nat 1%nat = S 0%nat 0%nat.
Proof. repeat split; reflexivity. Qed.
Lemma esh_recip : lam * (2 * S 0%nat 2%nat - (S 0%nat 0%nat + S 0%nat 1%nat) - S 2%nat 0%nat + S 2%nat 2%nat)
  + 2 * G * (S 0%nat 2%nat - S 2%nat 0%nat) = 0.
Proof.
  destruct nu_facts as (N1 & N2 & N3). assert (HPI := PI_RGT_0).
  assert (Hsq : 0 < 1 - al^2) by nra.
  assert (HL : lam * (1 - 2*nu) = 2 * G * nu) by (unfold lam, nu; field; lra).
  assert (E0 : lam = 2 * G * nu / (1 - 2*nu)) by (rewrite <- HL; field; lra).
  rewrite E0. unfold S, esh_S, esh_II, rows, esh_axis, esh_I; cbn [nth Nat.eqb].
  generalize (esh_I1 al). intros I1. field. repeat split; nra.
Qed.
(** The three equations in terms of mean in-plane strain [a], axial strain [b] and in-plane difference [d]. *)
Lemma eigen_red e0 es : eigenstrain K G Kf nu al e0 es ->
  let a := (es 0%nat + es 1%nat) / 2 in let b := es 2%nat in
  (1 - S 0%nat 0%nat - S 0%nat 1%nat + 2 * S 2%nat 0%nat) * a + (-1 - S 0%nat 2%nat + S 2%nat 2%nat) * b
    = (e0 0%nat + e0 1%nat) / 2 - e0 2%nat /\
  (2 + 6 * C - 2 * (S 0%nat 0%nat + S 0%nat 1%nat) - 2 * S 2%nat 0%nat) * a + (1 + 3 * C - 2 * S 0%nat 2%nat - S 2%nat 2%nat) * b
    = e0 0%nat + e0 1%nat + e0 2%nat /\
  (1 - S 0%nat 0%nat + S 0%nat 1%nat) * (es 0%nat - es 1%nat) = e0 0%nat - e0 1%nat.
Proof.
  intros H. generalize (H 0%nat ltac:(lia)) (H 1%nat ltac:(lia)) (H 2%nat ltac:(lia)).
  unfold sum3, iso_normal, kron; cbn [Nat.eqb]. fold S. fold (S 0%nat 0%nat).
  change (esh_S nu al) with S.
  destruct esh_sym as (-> & -> & -> & ->). fold lam.
  generalize (S 0%nat 0%nat) (S 0%nat 1%nat) (S 0%nat 2%nat) (S 2%nat 0%nat) (S 2%nat 2%nat).
  intros s11 s12 s13 s31 s33. generalize (es 0%nat) (es 1%nat) (es 2%nat) (e0 0%nat) (e0 1%nat) (e0 2%nat).
  intros x0 x1 x2 f0 f1 f2 H0 H1 H2. cbv zeta.
  assert (HC : 1 + 3 * C = K / (K - Kf)) by (unfold C; field; lra).
  split; [|split].
  - apply (Rmult_eq_reg_l (2 * G)); [|lra]. lra.
  - replace (2 + 6 * C) with (2 * (1 + 3 * C)) by ring. rewrite HC.
    apply (Rmult_eq_reg_l (3 * (K - Kf))); [|lra].
    transitivity (3 * K * (x0 + x1 + x2) - 3 * (K - Kf) * ((s11 + s12 + s31) * (x0 + x1) + (2 * s13 + s33) * x2)); [field; lra|].
    unfold lam in *. lra.
  - apply (Rmult_eq_reg_l (2 * G)); [|lra]. lra.
Qed.
Lemma eigen_ex e0 es : 
  (let a := (es 0%nat + es 1%nat) / 2 in let b := es 2%nat in
  (1 - S 0%nat 0%nat - S 0%nat 1%nat + 2 * S 2%nat 0%nat) * a + (-1 - S 0%nat 2%nat + S 2%nat 2%nat) * b
    = (e0 0%nat + e0 1%nat) / 2 - e0 2%nat /\
  (2 + 6 * C - 2 * (S 0%nat 0%nat + S 0%nat 1%nat) - 2 * S 2%nat 0%nat) * a + (1 + 3 * C - 2 * S 0%nat 2%nat - S 2%nat 2%nat) * b
    = e0 0%nat + e0 1%nat + e0 2%nat /\
  (1 - S 0%nat 0%nat + S 0%nat 1%nat) * (es 0%nat - es 1%nat) = e0 0%nat - e0 1%nat) ->
  eigenstrain K G Kf nu al e0 es.
Proof.
  cbv zeta. intros (H1 & H2 & H3) i Hi. 
  unfold sum3, iso_normal, kron; cbn [Nat.eqb].
  change (esh_S nu al) with S.
  destruct esh_sym as (-> & -> & -> & ->). fold lam.
  revert H1 H2 H3.
  generalize (S 0%nat 0%nat) (S 0%nat 1%nat) (S 0%nat 2%nat) (S 2%nat 0%nat) (S 2%nat 2%nat).
  intros s11 s12 s13 s31 s33. generalize (es 0%nat) (es 1%nat) (es 2%nat) (e0 0%nat) (e0 1%nat) (e0 2%nat).
  intros x0 x1 x2 f0 f1 f2 H1 H2 H3.
  assert (HC : 1 + 3 * C = K / (K - Kf)) by (unfold C; field; lra).
  assert (T : K * (x0 + x1 + x2) = (K - Kf) * (f0 + f1 + f2 + (s11 + s12 + s31) * (x0 + x1) + (2 * s13 + s33) * x2)).
  { rewrite <- H2. replace (2 + 6 * C) with (2 * (1 + 3 * C)) by ring. rewrite HC. field. lra. }
  assert (T' : lam * (x0 + x1 + x2) = (lam - Kf) * (f0 + f1 + f2 + (s11 + s12 + s31) * (x0 + x1) + (2 * s13 + s33) * x2)
     + 2/3 * G * (f0 + f1 + f2 + (s11 + s12 + s31) * (x0 + x1) + (2 * s13 + s33) * x2 - (x0 + x1 + x2))) by (unfold lam; lra).
  assert (M1 := f_equal (Rmult G) H1). assert (M3 := f_equal (Rmult G) H3).
  destruct i as [|[|[|i]]]; [| | |lia]; cbn [Nat.eqb]; lra.
Qed.

Lemma esh_main c11 c33 c13 c44 c66 :
  EM_Eshelby_Cheng m (Fin K) (Fin G) (Fin phi) (Fin al) (Fin Kf) false
    = Ret (EC_array (Fin c11) (Fin c33) (Fin c13) (Fin c44) (Fin c66)) ->
  (1 - 2 * esh_shear nu al 0 2 <> 0 /\ (G - c44) * (1 - 2 * esh_shear nu al 0 2) = phi * G) /\
  (1 - 2 * esh_shear nu al 0 1 <> 0 /\ (G - c66) * (1 - 2 * esh_shear nu al 0 1) = phi * G) /\
  (exists es, eigenstrain K G Kf nu al (axis_dir 2) es) /\
  (forall es, eigenstrain K G Kf nu al (axis_dir 2) es ->
     c33 = lam + 2*G - phi * sum3 (fun j => iso_normal K G 2 j * es j) /\
     c13 = lam - phi * sum3 (fun j => iso_normal K G 0 j * es j)) /\
  (exists es, eigenstrain K G Kf nu al (axis_dir 0) es) /\
  (forall es, eigenstrain K G Kf nu al (axis_dir 0) es ->
     c13 = lam - phi * sum3 (fun j => iso_normal K G 2 j * es j) /\
     c11 = lam + 2*G - phi * sum3 (fun j => iso_normal K G 0 j * es j)
           + phi * lam * (sum3 es - (1 + esh_S nu al 2 0 - esh_S nu al 2 2))).
Proof.
  rewrite esh_eval. intros H. repeat (apply bind_inv in H; cbv beta in H).
  apply f_equal with (f := fun o => match o with Ret x => x | _ => EC_array NaN NaN NaN NaN NaN end) in H.
  cbv beta iota in H.
  injection H; intros X66 X44 X13 X33 X11; clear H.
  apply sub_mul_inv in X66 as (r66 & X66 & ->). apply sub_mul_inv in X44 as (r44 & X44 & ->).
  apply sub_mul_inv in X13 as (r13 & X13 & ->). apply sub_mul_inv in X33 as (r33 & X33 & ->).
  apply sub_mul_inv in X11 as (r11 & X11 & ->). apply add_inv_r in X11 as (t11 & X11 & ->).
  apply div_np_inv in X66 as (N66 & ->). apply div_np_inv in X44 as (N44 & ->).
  apply div_np_inv in X13 as (N13 & ->). apply div_np_inv in X33 as (N33 & ->). apply div_np_inv in X11 as (N11 & ->).
  assert (NS : 1 - S 0%nat 0%nat + S 0%nat 1%nat <> 0).
  { intros Z. apply N11. replace (S 0%nat 1%nat - S 0%nat 0%nat + 1) with 0 by lra. ring. }
  split. { split; [exact N44|]. field. exact N44. }
  split. { split; [exact N66|]. field. exact N66. }
  assert (REC := esh_recip). assert (EE := esh_E (S 0%nat 0%nat) (S 0%nat 1%nat) (S 2%nat 2%nat) (S 0%nat 2%nat) (S 2%nat 0%nat) C).
  fold D E in EE. cbv zeta in EE.
  split; [|split; [|split]].
  - pose (a := (S 0%nat 2%nat - C) / D). pose (b := (1 - S 0%nat 0%nat - S 0%nat 1%nat + 2 * C) / D).
    exists (fun i => nth i [a; a; b] 0). apply eigen_ex. cbv zeta. cbn [nth]. unfold axis_dir, kron; cbn [Nat.eqb].
    unfold a, b. split; [|split].
    + apply (Rmult_eq_reg_r D); [|exact N33]. field_simplify; [|exact N33]. unfold D. field.
    + apply (Rmult_eq_reg_r D); [|exact N33]. field_simplify; [|exact N33]. unfold D. field.
    + ring.
  - intros es He. apply eigen_red in He. cbv zeta in He. destruct He as (R1 & R2 & R3).
    revert R1 R2 R3. unfold axis_dir, kron; cbn [Nat.eqb]. intros R1 R2 R3.
    assert (Q : es 0%nat = es 1%nat).
    { apply Rminus_diag_uniq. apply (Rmult_eq_reg_l (1 - S 0%nat 0%nat + S 0%nat 1%nat)); [|exact NS]. lra. }
    destruct (esh_cramer _ _ _ _ _ _ N33 _ _ _ _ R1 R2) as (A & B). fold D in A, B.
    assert (A' : es 0%nat = (S 0%nat 2%nat - C) / D). { transitivity ((es 0%nat + es 1%nat) / 2); [lra|]. rewrite A. field. exact N33. }
    assert (B' : es 2%nat = (1 - S 0%nat 0%nat - S 0%nat 1%nat + 2 * C) / D). { rewrite B. field. exact N33. }
    unfold sum3, iso_normal, kron; cbn [Nat.eqb]. fold lam. rewrite <- Q, A', B'. split.
    + field. exact N33.
    + apply (Rmult_eq_reg_r (2 * D)); [|exact N13]. field_simplify; try exact N33.
      assert (M := f_equal (Rmult phi) REC). lra.
  - pose (a := (1 + C - S 2%nat 2%nat) / (2 * D)). pose (b := (S 2%nat 0%nat - C) / D).
    pose (d := 1 / (2 * (1 - S 0%nat 0%nat + S 0%nat 1%nat))).
    exists (fun i => nth i [a + d; a - d; b] 0). apply eigen_ex. cbv zeta. cbn [nth]. unfold axis_dir, kron; cbn [Nat.eqb].
    unfold a, b. split; [|split].
    + apply (Rmult_eq_reg_r D); [|exact N33]. field_simplify; [|exact N33]. unfold D. field.
    + apply (Rmult_eq_reg_r D); [|exact N33]. field_simplify; [|exact N33]. unfold D. field.
    + unfold d. field. split; assumption.
  - intros es He. apply eigen_red in He. cbv zeta in He. destruct He as (R1 & R2 & R3).
    revert R1 R2 R3. unfold axis_dir, kron; cbn [Nat.eqb]. intros R1 R2 R3.
    assert (Q : es 0%nat - es 1%nat = 1 / (1 - S 0%nat 0%nat + S 0%nat 1%nat)).
    { apply (Rmult_eq_reg_l (1 - S 0%nat 0%nat + S 0%nat 1%nat)); [|exact NS]. rewrite R3. field. exact NS. }
    destruct (esh_cramer _ _ _ _ _ _ N33 _ _ _ _ R1 R2) as (A & B). fold D in A, B.
    assert (A' : es 0%nat + es 1%nat = (1 + C - S 2%nat 2%nat) / D).
    { transitivity (2 * ((es 0%nat + es 1%nat) / 2)); [lra|]. rewrite A. field. exact N33. }
    assert (B' : es 2%nat = (S 2%nat 0%nat - C) / D). { rewrite B. field. exact N33. }
    unfold sum3, iso_normal, kron; cbn [Nat.eqb]. fold lam. change (esh_S nu al) with S.
    split.
    + transitivity (lam - phi * (lam * (es 0%nat + es 1%nat) + (lam + 2 * G) * es 2%nat)); [|ring].
      rewrite A', B'. apply (Rmult_eq_reg_r (2 * D)); [|exact N13]. field_simplify; try exact N33.
      assert (M := f_equal (Rmult phi) REC). lra.
    + replace (es 0%nat) with ((es 0%nat + es 1%nat) / 2 + (es 0%nat - es 1%nat) / 2) by field.
      assert (P1 : es 1%nat = (es 0%nat + es 1%nat) / 2 - (es 0%nat - es 1%nat) / 2) by field. rewrite A', Q in P1.
      rewrite A', Q, P1, B'.
      rewrite EE. field. split; [exact N33|]. intros Z; apply NS; lra.
Qed.

Lemma esh_trace es : D <> 0 -> eigenstrain K G Kf nu al (axis_dir 0) es ->
  sum3 es = (1 + S 2%nat 0%nat - S 2%nat 2%nat) / D.
Proof.
  intros N33 He. apply eigen_red in He. cbv zeta in He. destruct He as (R1 & R2 & _).
  revert R1 R2. unfold axis_dir, kron; cbn [Nat.eqb]. intros R1 R2.
  destruct (esh_cramer _ _ _ _ _ _ N33 _ _ _ _ R1 R2) as (A & B). fold D in A, B.
  unfold sum3. replace (es 0%nat + es 1%nat + es 2%nat) with (2 * ((es 0%nat + es 1%nat) / 2) + es 2%nat) by field.
  rewrite A, B. field. exact N33.
Qed.
Lemma esh_finite : D <> 0 -> 1 - S 0%nat 0%nat + S 0%nat 1%nat <> 0 ->
  1 - 2 * esh_shear nu al 0 2 <> 0 -> 1 - 2 * esh_shear nu al 0 1 <> 0 ->
  exists c11 c33 c13 c44 c66, EM_Eshelby_Cheng m (Fin K) (Fin G) (Fin phi) (Fin al) (Fin Kf) false
    = Ret (EC_array (Fin c11) (Fin c33) (Fin c13) (Fin c44) (Fin c66)).
Proof.
  intros N1 N2 N3 N4. rewrite esh_eval.
  assert (2 * D <> 0) by lra.
  assert (D * (S 0%nat 1%nat - S 0%nat 0%nat + 1) <> 0) by (apply Rmult_integral_contrapositive_currified; lra).
  repeat (first [fl1 | rewrite fdiv_fin by assumption]; cbv beta). do 5 eexists. reflexivity.
Qed.
Lemma esh_mat c11 c33 c13 c44 c66 :
  EM_Eshelby_Cheng m (Fin K) (Fin G) (Fin phi) (Fin al) (Fin Kf) false = Ret (EC_array c11 c33 c13 c44 c66) ->
  EM_Eshelby_Cheng m (Fin K) (Fin G) (Fin phi) (Fin al) (Fin Kf) true =
  (call! C := utils_write_VTI_matrix c11 c33 c13 c44 c66 in Ret (EC_mat C)).
Proof.
  unfold EM_Eshelby_Cheng. cbn [negb].
  repeat (apply bind_rel; [intro; discriminate|intro; cbv beta zeta]).
  intros H. injection H. intros <- <- <- <- <-. reflexivity.
Qed.
End EC.

(** Concrete instance. *)
Lemma esh_wit_x : let x := esh_I1 (1/2) / (4 * PI) in 2/10 < x < 36/100.
Proof.
  assert (HPI := PI_RGT_0). assert (P4 := PI_4). assert (P3 := PI2_3_2).
  assert (Es : sqrt (1 - (1/2)^2) = sqrt 3 / 2).
  { replace (1 - (1/2)^2) with (3 / (2 * 2)) by field. rewrite sqrt_div_alt by lra. f_equal. apply sqrt_square; lra. }
  assert (Ea : acos (1/2) = PI/3).
  { rewrite <- cos_PI3. apply acos_cos. lra. }
  assert (S3 : sqrt 3 * sqrt 3 = 3) by (apply sqrt_sqrt; lra).
  assert (S0 : 173/100 < sqrt 3 < 174/100).
  { split; [apply Rnot_le_lt|apply Rnot_le_lt]; intros Q; assert (0 <= sqrt 3) by apply sqrt_pos; nra. }
  cbv zeta. unfold esh_I1. rewrite Ea, Es.
  replace (2 * PI * (1/2) * (PI/3 - 1/2 * (sqrt 3 / 2)) / (sqrt 3 / 2)^3 / (4 * PI)) with (2 * PI / (9 * sqrt 3) - 1/6).
  2:{ replace ((sqrt 3 / 2)^3) with (3 * sqrt 3 / 8) by (rewrite <- S3 at 1; field). field. lra. }
  split.
  - assert (1/6 + 2/10 < 2 * PI / (9 * sqrt 3)); [|lra]. apply Rmult_lt_reg_r with (9 * sqrt 3); [lra|]. field_simplify; lra.
  - assert (2 * PI / (9 * sqrt 3) < 36/100 + 1/6); [|lra]. apply Rmult_lt_reg_r with (9 * sqrt 3); [lra|]. field_simplify; lra.
Qed.
Lemma esh_wit m phi : phi <> 0 ->
  let nu := (3*5 - 2*3) / (6*5 + 2*3) in
  exists c11 c33 c13 c44 c66,
    EM_Eshelby_Cheng m (Fin 5) (Fin 3) (Fin phi) (Fin (1/2)) (Fin 0) false
      = Ret (EC_array (Fin c11) (Fin c33) (Fin c13) (Fin c44) (Fin c66)) /\
    (exists es, eigenstrain 5 3 0 nu (1/2) (axis_dir 0) es) /\
    forall es, eigenstrain 5 3 0 nu (1/2) (axis_dir 0) es ->
    c11 <> 5 + 4/3*3 - phi * sum3 (fun j => iso_normal 5 3 0 j * es j).
Proof.
  intros Hphi nu. assert (HPI := PI_RGT_0). destruct esh_wit_x as (X0 & X1). set (x := esh_I1 (1/2) / (4 * PI)) in *.
  assert (EI : esh_I1 (1/2) = 4 * PI * x) by (unfold x; field; lra).
  assert (En : nu = 1/4) by (unfold nu; field).
  assert (E00 : esh_S nu (1/2) 0 0 = -1/6 + 7/3 * x).
  { rewrite En. unfold esh_S, esh_II, rows, esh_axis, esh_I; cbn [nth Nat.eqb]. rewrite EI. field. lra. }
  assert (E01 : esh_S nu (1/2) 0 1 = -1/18 + 1/3 * x).
  { rewrite En. unfold esh_S, esh_II, rows, esh_axis, esh_I; cbn [nth Nat.eqb]. rewrite EI. field. lra. }
  assert (E22 : esh_S nu (1/2) 2 2 = 5/9 + 2/3 * x).
  { rewrite En. unfold esh_S, esh_II, rows, esh_axis, esh_I; cbn [nth Nat.eqb]. rewrite EI. field. lra. }
  assert (E02 : esh_S nu (1/2) 0 2 = 2/9 - x).
  { rewrite En. unfold esh_S, esh_II, rows, esh_axis, esh_I; cbn [nth Nat.eqb]. rewrite EI. field. lra. }
  assert (E20 : esh_S nu (1/2) 2 0 = 5/9 - 2 * x).
  { rewrite En. unfold esh_S, esh_II, rows, esh_axis, esh_I; cbn [nth Nat.eqb]. rewrite EI. field. lra. }
  assert (E44 : esh_shear nu (1/2) 0 2 = 13/18 - 11/6 * x).
  { rewrite En. unfold esh_shear, esh_II, rows, esh_axis, esh_I; cbn [nth Nat.eqb]. rewrite EI. field. lra. }
  assert (E66 : esh_shear nu (1/2) 0 1 = -1/18 + x).
  { rewrite En. unfold esh_shear, esh_II, rows, esh_axis, esh_I; cbn [nth Nat.eqb]. rewrite EI. field. lra. }
  assert (ED : let D := esh_S nu (1/2) 2 2 * esh_S nu (1/2) 0 0 + esh_S nu (1/2) 2 2 * esh_S nu (1/2) 0 1 - 2 * esh_S nu (1/2) 2 0 * esh_S nu (1/2) 0 2
     - (esh_S nu (1/2) 0 0 + esh_S nu (1/2) 0 1 + esh_S nu (1/2) 2 2 - 1 - 3 * (0 / (3 * (5 - 0))))
     - (0 / (3 * (5 - 0))) * (esh_S nu (1/2) 0 0 + esh_S nu (1/2) 0 1 + 2 * (esh_S nu (1/2) 2 2 - esh_S nu (1/2) 0 2 - esh_S nu (1/2) 2 0))
     in D = 8/27 - 20/9 * x^2).
  { cbv zeta. rewrite E00, E01, E22, E02, E20. field. }
  assert (D0 : 0 < 8/27 - 20/9 * x^2 < 8/27) by nra.
  destruct (esh_finite m 5 3 phi (1/2) 0 ltac:(lra) ltac:(lra) ltac:(lra) ltac:(lra)) as (c11 & c33 & c13 & c44 & c66 & Ev).
  { cbv zeta in ED. fold nu. rewrite ED. lra. }
  { fold nu. rewrite E00, E01. lra. }
  { fold nu. rewrite E44. lra. }
  { fold nu. rewrite E66. lra. }
  exists c11, c33, c13, c44, c66. split; [exact Ev|].
  apply esh_main in Ev; try lra. fold nu in Ev.
  destruct Ev as (_ & _ & _ & _ & Ex & All). split; [exact Ex|].
  intros es He. destruct (All es He) as (_ & ->).
  assert (T := esh_trace 5 3 (1/2) 0 ltac:(lra) ltac:(lra) es). cbv beta zeta in T; fold nu in T. cbv zeta in ED. rewrite ED in T.
  rewrite T by (auto; lra). rewrite E20, E22.
  assert (N : 0 < (1 + (5/9 - 2 * x) - (5/9 + 2/3 * x)) / (8/27 - 20/9 * x^2) - (1 + (5/9 - 2 * x) - (5/9 + 2/3 * x))).
  { replace (1 + (5/9 - 2 * x) - (5/9 + 2/3 * x)) with (1 - 8/3 * x) by field. set (d := 8/27 - 20/9 * x^2) in *.
    assert (1 < / d). { rewrite <- Rinv_1. apply Rinv_lt_contravar; lra. }
    unfold Rdiv. assert (0 < 1 - 8/3 * x) by lra. nra. }
  intros Q.
  assert (phi * (((1 + (5/9 - 2 * x) - (5/9 + 2/3 * x)) / (8/27 - 20/9 * x^2) - (1 + (5/9 - 2 * x) - (5/9 + 2/3 * x)))) = 0) by lra.
  apply Rmult_integral in H. destruct H; [contradiction|lra].
Qed.
