(** * Lemmas about AVO.py: exact reflection coefficients. *)
From Verif Require Import Fl M_Utils M_EM M_Anis M_AVO Spec Spec5 Spec8 RealLemmas L_Lists L_AVO1 L_AVO2.
Open Scope R_scope.

Lemma iff_and A B A' B' : (A <-> A') -> (B <-> B') -> (A /\ B <-> A' /\ B').
Proof. tauto. Qed.
Section W.
Variables (vp1 vs1 r1 vp2 vs2 r2 p q1 q2 s1 s2 : R).
Hypotheses (V1 : 0 < vp1) (W1 : 0 < vs1) (R1 : 0 < r1) (V2 : 0 < vp2) (W2 : 0 < vs2) (R2 : 0 < r2).
Hypotheses (Q1 : slowness vp1 p q1) (Q2 : slowness vp2 p q2) (S1 : slowness vs1 p s1) (S2 : slowness vs2 p s2).
Let a := ar_a vs1 r1 vs2 r2 p.
Let b := ar_b vs1 r1 vs2 r2 p.
Let c := ar_c vs1 r1 vs2 r2 p.
Let d := ar_d vs1 r1 vs2 r2.
Let E := ar_E vs1 r1 vs2 r2 p q1 q2.
Let F := ar_F vs1 r1 vs2 r2 p s1 s2.
Let G := ar_G vs1 r1 vs2 r2 p q1 s2.
Let H := ar_H vs1 r1 vs2 r2 p q2 s1.
Let D := ar_D vs1 r1 vs2 r2 p q1 q2 s1 s2 s1.
(** Amplitudes times velocities; [I] the incident one. *)
Definition red (I P S U V : R) : Prop :=
  p * (I + P) + s1 * S = p * U + s2 * V /\
  q1 * (I - P) + p * S = q2 * U - p * V /\
  2 * r1 * vs1^2 * p * q1 * (I - P) - r1 * (1 - 2 * vs1^2 * p^2) * S = 2 * r2 * vs2^2 * p * q2 * U + r2 * (1 - 2 * vs2^2 * p^2) * V /\
  r1 * (1 - 2 * vs1^2 * p^2) * (I + P) - 2 * r1 * vs1^2 * s1 * p * S = r2 * (1 - 2 * vs2^2 * p^2) * U - 2 * r2 * vs2^2 * s2 * p * V.
Lemma slow_mul v q : 0 < v -> slowness v p q -> v^2 * q^2 = 1 - v^2 * p^2.
Proof. intros Hv Hs. unfold slowness in Hs. assert (v^2 * (p^2 + q^2) = 1) by (rewrite Hs; field; lra). lra. Qed.
Lemma welded_red Rpp Rps Tpp Tps : welded vp1 vs1 r1 vp2 vs2 r2 p q1 q2 s1 s2 Rpp Rps Tpp Tps <-> red vp1 (vp1 * Rpp) (vs1 * Rps) (vp2 * Tpp) (vs2 * Tps).
Proof.
  assert (A1 := slow_mul vp1 q1 V1 Q1). assert (A2 := slow_mul vp2 q2 V2 Q2). assert (B1 := slow_mul vs1 s1 W1 S1). assert (B2 := slow_mul vs2 s2 W2 S2).
  unfold welded, red, shear_traction, normal_traction. cbv beta zeta.
  assert (X : forall A B A' B' : R, A = A' -> B = B' -> (A = B <-> A' = B')) by (intros; subst; tauto).
  assert (Z1 : vp1^2 * q1^2 - (1 - vp1^2 * p^2) = 0) by lra. assert (Z2 : vp2^2 * q2^2 - (1 - vp2^2 * p^2) = 0) by lra.
  assert (Y1 : vs1^2 * s1^2 - (1 - vs1^2 * p^2) = 0) by lra. assert (Y2 : vs2^2 * s2^2 - (1 - vs2^2 * p^2) = 0) by lra.
  assert (K : forall u v k e : R, e = 0 -> u = v + k * e -> u = v) by (intros u v k e -> ->; ring).
  apply iff_and; [apply X; ring|]. apply iff_and; [apply X; ring|]. apply iff_and; apply X.
  - apply (K _ _ (- r1 * vs1 * Rps) _ Y1). ring.
  - apply (K _ _ (r2 * vs2 * Tps) _ Y2). ring.
  - apply (K _ _ (r1 * vp1 * (1 + Rpp)) _ Z1). ring.
  - apply (K _ _ (r2 * vp2 * Tpp) _ Z2). ring.
Qed.
Lemma red_solve I P S U V : red I P S U V <->
  r1 * (I + P) = b * U - d * p * s2 * V /\ - (r1 * S) = d * p * q2 * U + b * V /\ E * U + p * G * V = 2 * r1 * q1 * I /\ p * H * U = F * V.
Proof.
  unfold red, E, F, G, H, ar_E, ar_F, ar_G, ar_H. fold a b c d.
  assert (Ec : c = r1 + d * p^2) by (unfold c, d, ar_c, ar_d; ring). assert (Ea : a = b - r1) by (unfold a, b, ar_a, ar_b; ring).
  assert (Ed : d = (2 * r2 * vs2^2) - (2 * r1 * vs1^2)) by (unfold d, ar_d; ring).
  assert (Eb : b = r2 - d * p^2) by (unfold b, d, ar_b, ar_d; ring).
  assert (C : forall u v w z k : R, k <> 0 -> k * (u - v) = k * (w - z) -> (u = v <-> w = z)).
  { intros u v w z k Hk HH. apply Rmult_eq_reg_l in HH; [|auto]. split; intros; lra. }
  split.
  - intros (X1 & X2 & X3 & X4).
    assert (Y1 : r1 * (I + P) = b * U - d * p * s2 * V).
    { assert (Z : r1 * (1 - 2 * vs1^2 * p^2) * (I + P) - 2 * r1 * vs1^2 * s1 * p * S + (2 * r1 * vs1^2) * p * (p * (I + P) + s1 * S)
        = r2 * (1 - 2 * vs2^2 * p^2) * U - 2 * r2 * vs2^2 * s2 * p * V + (2 * r1 * vs1^2) * p * (p * U + s2 * V)) by (rewrite X1, X4; reflexivity).
      rewrite Eb, Ed.  lra. }
    assert (Y2 : - (r1 * S) = d * p * q2 * U + b * V).
    { assert (Z : 2 * r1 * vs1^2 * p * q1 * (I - P) - r1 * (1 - 2 * vs1^2 * p^2) * S - (2 * r1 * vs1^2) * p * (q1 * (I - P) + p * S)
        = 2 * r2 * vs2^2 * p * q2 * U + r2 * (1 - 2 * vs2^2 * p^2) * V - (2 * r1 * vs1^2) * p * (q2 * U - p * V)) by (rewrite X2, X3; reflexivity).
      rewrite Eb, Ed.  lra. }
    split; [exact Y1|]. split; [exact Y2|]. rewrite Ec, Ea. split.
    + assert (Z : r1 * (q1 * (I - P) + p * S) = r1 * (q2 * U - p * V)) by (rewrite X2; reflexivity).
      assert (Z1 : q1 * (r1 * (I + P)) = q1 * (b * U - d * p * s2 * V)) by (rewrite Y1; reflexivity).
      assert (Z2 : p * (- (r1 * S)) = p * (d * p * q2 * U + b * V)) by (rewrite Y2; reflexivity). lra.
    + assert (Z : r1 * (p * (I + P) + s1 * S) = r1 * (p * U + s2 * V)) by (rewrite X1; reflexivity).
      assert (Z1 : p * (r1 * (I + P)) = p * (b * U - d * p * s2 * V)) by (rewrite Y1; reflexivity).
      assert (Z2 : s1 * (- (r1 * S)) = s1 * (d * p * q2 * U + b * V)) by (rewrite Y2; reflexivity). lra.
  - intros (Y1 & Y2 & Y3 & Y4). rewrite Ec, Ea in Y3, Y4.
    assert (Z1 : p * (r1 * (I + P)) = p * (b * U - d * p * s2 * V)) by (rewrite Y1; reflexivity).
    assert (Z2 : s1 * (- (r1 * S)) = s1 * (d * p * q2 * U + b * V)) by (rewrite Y2; reflexivity).
    assert (Z3 : q1 * (r1 * (I + P)) = q1 * (b * U - d * p * s2 * V)) by (rewrite Y1; reflexivity).
    assert (Z4 : p * (- (r1 * S)) = p * (d * p * q2 * U + b * V)) by (rewrite Y2; reflexivity).
    assert (X1 : p * (I + P) + s1 * S = p * U + s2 * V) by (apply (Rmult_eq_reg_l r1); lra).
    assert (X2 : q1 * (I - P) + p * S = q2 * U - p * V) by (apply (Rmult_eq_reg_l r1); lra).
    assert (X1m : (2 * r1 * vs1^2) * p * (p * (I + P) + s1 * S) = (2 * r1 * vs1^2) * p * (p * U + s2 * V)) by (rewrite X1; reflexivity).
    assert (X2m : (2 * r1 * vs1^2) * p * (q1 * (I - P) + p * S) = (2 * r1 * vs1^2) * p * (q2 * U - p * V)) by (rewrite X2; reflexivity).
    rewrite Eb, Ed in Y1, Y2.  repeat split; try assumption; lra.
Qed.
(** Energy: with nothing incident there is no outgoing wave. *)
Lemma red_energy I P S U V : red I P S U V -> r1 * q1 * (I^2 - P^2) = r1 * s1 * S^2 + r2 * q2 * U^2 + r2 * s2 * V^2.
Proof.
  intros (X1 & X2 & X3 & X4).
  assert (Z : (p * (I + P) + s1 * S) * (2 * r1 * vs1^2 * p * q1 * (I - P) - r1 * (1 - 2 * vs1^2 * p^2) * S) + (q1 * (I - P) + p * S) * (r1 * (1 - 2 * vs1^2 * p^2) * (I + P) - 2 * r1 * vs1^2 * s1 * p * S)
    = (p * U + s2 * V) * (2 * r2 * vs2^2 * p * q2 * U + r2 * (1 - 2 * vs2^2 * p^2) * V) + (q2 * U - p * V) * (r2 * (1 - 2 * vs2^2 * p^2) * U - 2 * r2 * vs2^2 * s2 * p * V))
    by (rewrite X1, X2, X3, X4; reflexivity).
  lra.
Qed.
Hypotheses (q1p : 0 < q1) (q2p : 0 < q2) (s1p : 0 < s1) (s2p : 0 < s2).
Lemma red_zero P S U V : red 0 P S U V -> U = 0 /\ V = 0.
Proof.
  intros X. apply red_energy in X. assert (0 < r1 * q1) by (apply Rmult_lt_0_compat; auto). assert (0 < r1 * s1) by (apply Rmult_lt_0_compat; auto).
  assert (0 < r2 * q2) by (apply Rmult_lt_0_compat; auto). assert (0 < r2 * s2) by (apply Rmult_lt_0_compat; auto).
  assert (0 <= P^2) by apply pow2_ge_0. assert (0 <= S^2) by apply pow2_ge_0. assert (0 <= U^2) by apply pow2_ge_0. assert (0 <= V^2) by apply pow2_ge_0.
  assert (0 <= r1 * q1 * P^2) by (apply Rmult_le_pos; lra). assert (0 <= r1 * s1 * S^2) by (apply Rmult_le_pos; lra).
  assert (0 <= r2 * q2 * U^2) by (apply Rmult_le_pos; lra). assert (0 <= r2 * s2 * V^2) by (apply Rmult_le_pos; lra).
  assert (Z : forall k x : R, 0 < k -> k * x^2 = 0 -> x = 0). { intros k x Hk E0. apply Rmult_integral in E0 as [|E0]; [lra|]. nra. }
  split; [apply (Z (r2 * q2))|apply (Z (r2 * s2))]; lra.
Qed.
Lemma D_nz : D <> 0.
Proof.
  intros Z. unfold D, ar_D in Z. fold E F G H in Z.
  assert (K : forall U V, E * U + p * G * V = 0 -> p * H * U = F * V -> U = 0 /\ V = 0).
  { intros U V A1 A2. apply (red_zero ((b * U - d * p * s2 * V) / r1) (- (d * p * q2 * U + b * V) / r1)).
    apply red_solve. repeat split; try assumption; try (field; lra). lra. }
  destruct (K F (p * H)) as (KF & KH); [lra|ring|]. destruct (K (- (p * G)) E) as (KG & KE); [ring|lra|].
  destruct (K 1 0) as (K1 & _); [rewrite KE; ring|rewrite KH; ring|]. lra.
Qed.
Lemma welded_iff Rpp Rps Tpp Tps : welded vp1 vs1 r1 vp2 vs2 r2 p q1 q2 s1 s2 Rpp Rps Tpp Tps <->
  Rpp = ar_pp vs1 r1 vs2 r2 p q1 q2 s1 s2 s1 /\ Rps = ar_ps vp1 vs1 r1 vs2 r2 p q1 q2 s1 s2 s1 /\
  vp2 * Tpp = 2 * r1 * q1 * vp1 * F / D /\ vs2 * Tps = 2 * r1 * q1 * vp1 * (p * H) / D.
Proof.
  assert (N := D_nz). rewrite welded_red, red_solve. unfold ar_pp, ar_ps. fold a b c d F H D.
  assert (ED : D = E * F + G * H * p^2) by reflexivity. 
  assert (EE : E = b * q1 + c * q2) by reflexivity. assert (EG : G = a - d * q1 * s2) by reflexivity. assert (EH : H = a - d * q2 * s1) by reflexivity.
  assert (EF : F = b * s1 + c * s2) by reflexivity.
  assert (Ec : c = r1 + d * p^2) by (unfold c, d, ar_c, ar_d; ring). assert (Ea : a = b - r1) by (unfold a, b, ar_a, ar_b; ring).
  set (U := vp2 * Tpp). set (V := vs2 * Tps). clearbody U V D.
  assert (UV : E * U + p * G * V = 2 * r1 * q1 * vp1 /\ p * H * U = F * V <-> U = 2 * r1 * q1 * vp1 * F / D /\ V = 2 * r1 * q1 * vp1 * (p * H) / D).
  { split.
    - intros (A1 & A2). split; apply (Rmult_eq_reg_r D); auto; unfold Rdiv; rewrite (Rmult_assoc _ (/ D) D), Rinv_l, Rmult_1_r by auto; rewrite ED, <- A1.
      + replace (U * (E * F + G * H * p^2)) with (E * U * F + p * G * (p * H * U)) by ring. rewrite A2. ring.
      + replace (V * (E * F + G * H * p^2)) with (E * (F * V) + p * G * V * (p * H)) by ring. rewrite <- A2. ring.
    - intros (-> & ->). split; [|field; auto]. 
      replace (E * (2 * r1 * q1 * vp1 * F / D) + p * G * (2 * r1 * q1 * vp1 * (p * H) / D)) with (2 * r1 * q1 * vp1 * (E * F + G * H * p^2) / D) by (field; auto).
      rewrite <- ED. field. auto. }
  rewrite UV. clear UV. split.
  - intros (Y1 & Y2 & U1 & V1'). rewrite U1, V1' in Y1, Y2. split; [|split; [|auto]].
    + apply (Rmult_eq_reg_l (r1 * vp1)); [|apply Rgt_not_eq, Rmult_lt_0_compat; lra].
      replace (r1 * vp1 * Rpp) with (r1 * (vp1 + vp1 * Rpp) - r1 * vp1) by ring. rewrite Y1. apply (Rmult_eq_reg_r D); [|auto]. unfold Rdiv. field_simplify; try assumption. rewrite ED. rewrite EE, EF, EG, EH, Ea. rewrite Ec. ring.
    + apply (Rmult_eq_reg_l (- (r1 * vs1))); [|apply Rlt_not_eq; assert (0 < r1 * vs1) by (apply Rmult_lt_0_compat; lra); lra].
      replace (- (r1 * vs1) * Rps) with (- (r1 * (vs1 * Rps))) by ring. rewrite Y2. rewrite EF, EH. field. lra.
  - intros (Y1 & Y2 & U1 & V1'). rewrite U1, V1'. split; [|split; [|auto]].
    + rewrite Y1. apply (Rmult_eq_reg_r D); [|auto]. unfold Rdiv. field_simplify; try assumption. rewrite ED. rewrite EE, EF, EG, EH, Ea. rewrite Ec. ring.
    + rewrite Y2. rewrite EF, EH. field. lra.
Qed.
End W.

(** ** The code *)
Lemma zoeppritz_eval vp1 vs1 r1 vp2 vs2 r2 th : 0 < vp1 -> 0 < vs1 -> 0 < vp2 -> 0 < vs2 ->
  let p := sin th / vp1 in let q1 := cos (radians th) / vp1 in
  let q2 := sqrt (1 - (p * vp2)^2) / vp2 in let s1 := sqrt (1 - (p * vs1)^2) / vs1 in let s2 := sqrt (1 - (p * vs2)^2) / vs2 in
  -1 <= p * vp2 <= 1 -> -1 <= p * vs1 <= 1 -> -1 <= p * vs2 <= 1 -> ar_D vs1 r1 vs2 r2 p q1 q2 s1 s2 s2 <> 0 ->
  AVO_zoeppritz (Fin vp1) (Fin vs1) (Fin r1) (Fin vp2) (Fin vs2) (Fin r2) (Fin th) =
  Ret (Fin (ar_pp vs1 r1 vs2 r2 p q1 q2 s1 s2 s2), Fin (ar_ps vp1 vs1 r1 vs2 r2 p q1 q2 s1 s2 s2)).
Proof.
  intros V1 W1 V2 W2 p q1 q2 s1 s2 A1 A2 A3 N. unfold AVO_zoeppritz.
  assert (vp1 <> 0) by lra. assert (vp2 <> 0) by lra. assert (vs1 <> 0) by lra. assert (vs2 <> 0) by lra.
  rewrite fdeg2rad_fin, bind_fin, fsin_fin, fdiv_fin, bind_fin by auto. change (th * PI / 180) with (radians th). fold p.
  rewrite !fmul_fin. rewrite !farcsin_fin by lra. rewrite !bind_fin. rewrite !fsin_fin, !fcos_fin.
  rewrite !sin_asin, !cos_asin by lra. rewrite !Rsqr_pow2.
  set (c1 := cos (radians th)) in *. set (c2 := sqrt (1 - (p * vp2)^2)) in *. set (d1 := sqrt (1 - (p * vs1)^2)) in *. set (d2 := sqrt (1 - (p * vs2)^2)) in *.
  repeat (first [fl1 | rewrite (fdiv_fin NumPy _ vp1) by auto | rewrite (fdiv_fin NumPy _ vp2) by auto
     | rewrite (fdiv_fin NumPy _ vs1) by auto | rewrite (fdiv_fin NumPy _ vs2) by auto]; cbv beta zeta).
  match goal with |- context [fdiv NumPy _ (Fin (?E * ?F + ?G))] => assert (X : E * F + G = ar_D vs1 r1 vs2 r2 p q1 q2 s1 s2 s2) by
    (unfold ar_D, ar_E, ar_F, ar_G, ar_H, ar_a, ar_b, ar_c, ar_d, q1, q2, s1, s2; field; auto) end.
  rewrite X. assert (vs1 * ar_D vs1 r1 vs2 r2 p q1 q2 s1 s2 s2 <> 0) by (apply Rmult_integral_contrapositive; auto).
  repeat (first [fl1 | rewrite fdiv_fin by auto]; cbv beta zeta). unfold ar_pp, ar_ps. set (D := ar_D _ _ _ _ _ _ _ _ _ _) in *. clearbody D.
  reteq; unfold ar_F, ar_H, ar_a, ar_b, ar_c, ar_d, q1, q2, s1, s2; field; auto.
Qed.

(** ** First order in the contrasts *)
From Coquelicot Require Import Coquelicot.
Lemma Du (f : R -> R) (x l : R) : is_derive f x l -> Derive (fun y : R => f y) x = l.
Proof. apply is_derive_unique. Qed.
Section First.
Variables (r p q s vp vs : R) (a b c d q2 s2 : R -> R) (a' b' c' d' q' s' : R).
Hypotheses (Hr : 0 < r) (Hq : 0 < q) (Hs : 0 < s) (Hv : 0 < vs).
Hypotheses (a0 : a 0 = 0) (b0 : b 0 = r) (c0 : c 0 = r) (d0 : d 0 = 0) (q0 : q2 0 = q) (s0 : s2 0 = s).
Hypotheses (Da : is_derive a 0 a') (Db : is_derive b 0 b') (Dc : is_derive c 0 c') (Dd : is_derive d 0 d') (Dq : is_derive q2 0 q') (Ds : is_derive s2 0 s').
Ltac exd := match goal with
  | H : is_derive ?f ?x _ |- ex_derive (fun y => ?f y) ?x => eexists; exact H
  | H : is_derive ?f ?x _ |- ex_derive ?f ?x => eexists; exact H end.
Let D (e : R) := (b e * q + c e * q2 e) * (b e * s + c e * s2 e) + (a e - d e * q * s2 e) * (a e - d e * q2 e * s) * p^2.
Lemma first_D0 : D 0 = 4 * r^2 * q * s.
Proof. unfold D. rewrite a0, b0, c0, d0, q0, s0. ring. Qed.
Lemma first_pp : is_derive (fun e => ((b e * q - c e * q2 e) * (b e * s + c e * s2 e) - (a e + d e * q * s2 e) * (a e - d e * q2 e * s) * p^2) / D e) 0
  ((b' - c') / (2 * r) - q' / (2 * q)).
Proof.
  assert (N0 : D 0 <> 0). { rewrite first_D0. apply Rgt_not_eq. repeat apply Rmult_lt_0_compat; try lra. }
  unfold D in *. auto_derive.
  - repeat split; try exd. exact N0.
  - rewrite (Du _ _ _ Da), (Du _ _ _ Db), (Du _ _ _ Dc), (Du _ _ _ Dd), (Du _ _ _ Dq), (Du _ _ _ Ds).
    rewrite a0, b0, c0, d0, q0, s0 in *. assert (0 < r * s) by nra. assert (0 < r * q) by nra. field. repeat split; lra.
Qed.
Lemma first_ps : is_derive (fun e => - 2 * q * (a e * b e + c e * d e * q2 e * s2 e) * p * vp / (vs * D e)) 0
  (- (p * vp / (2 * vs * s)) * (a' / r + d' / r * q * s)).
Proof.
  assert (N0 : vs * D 0 <> 0). { rewrite first_D0. apply Rgt_not_eq. repeat apply Rmult_lt_0_compat; try lra. }
  unfold D in *. auto_derive.
  - repeat split; try exd. exact N0.
  - rewrite (Du _ _ _ Da), (Du _ _ _ Db), (Du _ _ _ Dc), (Du _ _ _ Dd), (Du _ _ _ Dq), (Du _ _ _ Ds).
    rewrite a0, b0, c0, d0, q0, s0 in *. assert (0 < r * s) by nra. assert (0 < r * q) by nra. field. repeat split; lra.
Qed.
End First.

Lemma slow_derive v dv p : 0 < v -> 0 < 1 / v^2 - p^2 -> is_derive (fun e => sqrt (1 / (v + e * dv)^2 - p^2)) 0 (- (dv / (v^3 * sqrt (1 / v^2 - p^2)))).
Proof.
  intros Hv H. assert (S := sqrt_lt_R0 _ H).
  evar_last. { apply (is_derive_comp sqrt (fun e => 1 / (v + e * dv)^2 - p^2) 0 (/ (2 * sqrt (1 / v^2 - p^2))) (- 2 * dv / v^3)).
    - rewrite Rmult_0_l, Rplus_0_r. apply is_derive_Reals. replace (/ (2 * sqrt (1 / v^2 - p^2))) with (/ (2 * sqrt (1 / v^2 - p^2))) by reflexivity. apply derivable_pt_lim_sqrt. exact H.
    - auto_derive; rewrite ?Rmult_0_l, ?Rplus_0_r; [repeat split; try (apply Rgt_not_eq; nra)|]. field. lra. }
  match goal with |- scal ?a ?b = _ => change (scal a b) with (a * b) end. field. split; lra.
Qed.
Section Weak.
Variables (i vp vs r dvp dvs dr : R).
Hypotheses (Hi : -(PI/2) < i < PI/2) (Hs : 0 < vs) (Hv : vs < vp) (Hr : 0 < r).
Definition wk_p : R := sin i / vp.
Definition wk_pp (e : R) : R := ar_pp vs r (vs + e * dvs) (r + e * dr) wk_p (cos i / vp) (sqrt (1 / (vp + e * dvp)^2 - wk_p^2)) (sqrt (1 / vs^2 - wk_p^2)) (sqrt (1 / (vs + e * dvs)^2 - wk_p^2)) (sqrt (1 / vs^2 - wk_p^2)).
Definition wk_ps (e : R) : R := ar_ps vp vs r (vs + e * dvs) (r + e * dr) wk_p (cos i / vp) (sqrt (1 / (vp + e * dvp)^2 - wk_p^2)) (sqrt (1 / vs^2 - wk_p^2)) (sqrt (1 / (vs + e * dvs)^2 - wk_p^2)) (sqrt (1 / vs^2 - wk_p^2)).
Let p := wk_p.
Let q := cos i / vp.
Let s := sqrt (1 / vs^2 - p^2).
Lemma wk_facts : 0 < q /\ 1 / vp^2 - p^2 = q^2 /\ 0 < 1 / vs^2 - p^2 /\ 0 < s /\ s^2 = 1 / vs^2 - p^2.
Proof.
  assert (C : 0 < cos i) by (apply cos_gt_0; lra). assert (S := sc2 i). assert (Q : 0 < q) by (apply Rdiv_lt_0_compat; lra).
  assert (E : 1 / vp^2 - p^2 = q^2). { unfold p, q, wk_p. replace (1 / vp^2) with (((sin i)^2 + (cos i)^2) / vp^2) by (rewrite S; reflexivity). field. lra. }
  assert (1 / vp^2 < 1 / vs^2). { apply Rmult_lt_compat_l; [lra|]. apply Rinv_lt_contravar; [apply Rmult_lt_0_compat; apply pow_lt; lra|nra]. }
  assert (0 < q^2) by nra. assert (X : 0 < 1 / vs^2 - p^2) by lra. repeat split; auto. apply sqrt_lt_R0; auto. unfold s. rewrite <- Rsqr_pow2. apply Rsqr_sqrt. lra.
Qed.
Let vs2 (e : R) := vs + e * dvs.
Let r2 (e : R) := r + e * dr.
Let a (e : R) := ar_a vs r (vs2 e) (r2 e) p.
Let b (e : R) := ar_b vs r (vs2 e) (r2 e) p.
Let c (e : R) := ar_c vs r (vs2 e) (r2 e) p.
Let d (e : R) := ar_d vs r (vs2 e) (r2 e).
Let q2 (e : R) := sqrt (1 / (vp + e * dvp)^2 - p^2).
Let s2 (e : R) := sqrt (1 / (vs + e * dvs)^2 - p^2).
Lemma wk_derivs : is_derive a 0 (dr * (1 - 2 * vs^2 * p^2) - 4 * r * vs * dvs * p^2) /\ is_derive b 0 (dr * (1 - 2 * vs^2 * p^2) - 4 * r * vs * dvs * p^2) /\
  is_derive c 0 (2 * p^2 * (dr * vs^2 + 2 * r * vs * dvs)) /\ is_derive d 0 (2 * (dr * vs^2 + 2 * r * vs * dvs)) /\
  is_derive q2 0 (- (dvp / (vp^3 * q))) /\ is_derive s2 0 (- (dvs / (vs^3 * s))).
Proof.
  destruct wk_facts as (F1 & F2 & F3 & F4 & F5).
  unfold a, b, c, d, ar_a, ar_b, ar_c, ar_d, vs2, r2.
  do 4 (split; [auto_derive; [exact I|ring]|]). split.
  - replace q with (sqrt (1 / vp^2 - p^2)); [apply slow_derive; [lra|rewrite F2; nra]|]. rewrite F2. rewrite <- Rsqr_pow2. apply sqrt_Rsqr. lra.
  - apply slow_derive; lra.
Qed.
Lemma wk_zero : a 0 = 0 /\ b 0 = r /\ c 0 = r /\ d 0 = 0 /\ q2 0 = q /\ s2 0 = s.
Proof.
  destruct wk_facts as (F1 & F2 & F3 & F4 & F5). unfold a, b, c, d, q2, s2, ar_a, ar_b, ar_c, ar_d, vs2, r2. rewrite !Rmult_0_l, !Rplus_0_r.
  repeat split; try ring. rewrite F2. rewrite <- Rsqr_pow2. apply sqrt_Rsqr. lra.
Qed.
Lemma weak_pp : is_derive wk_pp 0 (1/2 * (1 - 4 * vs^2 * p^2) * (dr / r) + 1 / (2 * (cos i)^2) * (dvp / vp) - 4 * vs^2 * p^2 * (dvs / vs)).
Proof.
  destruct wk_facts as (F1 & F2 & F3 & F4 & F5). destruct wk_derivs as (D1 & D2 & D3 & D4 & D5 & D6). destruct wk_zero as (Z1 & Z2 & Z3 & Z4 & Z5 & Z6).
  assert (C : 0 < cos i) by (apply cos_gt_0; lra).
  evar_last. { apply (first_pp r p q s a b c d q2 s2 _ _ _ _ _ _ Hr F1 F4 Z1 Z2 Z3 Z4 Z5 Z6 D1 D2 D3 D4 D5 D6). }
  unfold q. field. repeat split; lra.
Qed.
Lemma weak_ps : is_derive wk_ps 0 (- (p * vp / (2 * (vs * s))) * ((1 - 2 * vs^2 * p^2 + 2 * vs^2 * (cos i / vp) * s) * (dr / r) - (4 * vs^2 * p^2 - 4 * vs^2 * (cos i / vp) * s) * (dvs / vs))).
Proof.
  destruct wk_facts as (F1 & F2 & F3 & F4 & F5). destruct wk_derivs as (D1 & D2 & D3 & D4 & D5 & D6). destruct wk_zero as (Z1 & Z2 & Z3 & Z4 & Z5 & Z6).
  evar_last. { apply (first_ps r p q s vp vs a b c d q2 s2 _ _ _ _ _ _ Hr F1 F4 Hs Z1 Z2 Z3 Z4 Z5 Z6 D1 D2 D3 D4 D5 D6). }
  fold q. field. repeat split; lra.
Qed.
Lemma weak_aki_pp : is_derive (fun e => aki_pp i vp (vp + e * dvp) vs (vs + e * dvs) r (r + e * dr)) 0
  (1/2 * (1 - 4 * vs^2 * p^2) * (dr / r) + 1 / (2 * (cos i)^2) * (dvp / vp) - 4 * vs^2 * p^2 * (dvs / vs)).
Proof.
  assert (C : 0 < cos i) by (apply cos_gt_0; lra). unfold aki_pp, contrast, mean2, p, wk_p.
  auto_derive.
  - rewrite ?Rmult_0_l, ?Rplus_0_r. repeat split; lra.
  - rewrite ?Rmult_0_l, ?Rplus_0_r. field. repeat split; lra.
Qed.
Lemma weak_aki_ps : is_derive (fun e => aki_ps i vp (vp + e * dvp) vs (vs + e * dvs) r (r + e * dr)) 0
  (- (p * vp / (2 * (vs * s))) * ((1 - 2 * vs^2 * p^2 + 2 * vs^2 * (cos i / vp) * s) * (dr / r) - (4 * vs^2 * p^2 - 4 * vs^2 * (cos i / vp) * s) * (dvs / vs))).
Proof.
  destruct wk_facts as (F1 & F2 & F3 & F4 & F5). 
  assert (Ec : sqrt (1 - (p * vs)^2) = vs * s).
  { unfold s. rewrite <- (sqrt_Rsqr vs) at 2 by lra. rewrite <- sqrt_mult by (try lra; apply Rle_0_sqr). f_equal. unfold Rsqr. field. lra. }
  unfold aki_ps, contrast, mean2. fold wk_p. fold p. rewrite Ec. assert (0 < vs * s) by (apply Rmult_lt_0_compat; lra). set (cj := vs * s) in *.
  auto_derive.
  - rewrite ?Rmult_0_l, ?Rplus_0_r. repeat split; lra.
  - rewrite ?Rmult_0_l, ?Rplus_0_r. replace s with (cj / vs) by (unfold cj; field; lra). clearbody cj. field. repeat split; lra.
Qed.
End Weak.

(** ** An angle at which sine and cosine agree although one takes degrees *)
Definition th0 : R := 2 * PI / (1 - PI / 180).
Lemma th0_facts : sin th0 = sin (radians th0) /\ cos th0 = cos (radians th0) /\ 0 < sin (radians th0) /\ 1/2 < cos (radians th0) /\ 0 < radians th0 < 1.
Proof.
  assert (P0 := PI_RGT_0). assert (P4 := PI_4). assert (P3 := PI2_3_2).
  assert (E : th0 = radians th0 + 2 * INR 1 * PI). { unfold th0, radians. cbn [INR]. field. lra. }
  assert (X0 : 0 < radians th0). { unfold radians, th0. apply Rdiv_lt_0_compat; [|lra]. apply Rmult_lt_0_compat; [|lra]. apply Rdiv_lt_0_compat; lra. }
  assert (X1 : radians th0 < 1).
  { unfold radians. assert (th0 * PI < 180); [|lra]. assert (th0 < 9) by (unfold th0; apply div_lt_iff; lra). assert (0 < th0) by (unfold th0; apply Rdiv_lt_0_compat; lra). nra. }
  split; [rewrite E at 1; apply sin_period|]. split; [rewrite E at 1; apply cos_period|].
  split; [apply sin_gt_0; lra|]. split; [|lra]. rewrite <- cos_PI3. apply cos_decreasing_1; lra.
Qed.
Section Ex.
Let x := radians th0.
Let p := sin x / 10.
Let q := cos x / 10.
Let s1 := sqrt (1 - (p * 1)^2) / 1.
Let s2 := sqrt (1 - (p * 2)^2) / 2.
Lemma ex_facts : 0 < p < 1/10 /\ 1/20 < q < 1/10 /\ 9/10 < s1 /\ 49/100 - 1/50 < s2 <= 1/2 /\ slowness 10 p q /\ slowness 1 p s1 /\ slowness 2 p s2.
Proof.
  destruct th0_facts as (_ & _ & T1 & T2 & T3). fold x in T1, T2, T3. assert (SC := sc2 x).
  assert (B : sin x < 1) by nra. assert (C : cos x < 1) by nra.
  assert (Hp : 0 < p < 1/10) by (unfold p; lra).
  assert (E1 : forall v, 0 < v <= 2 -> sqrt (1 - (p * v)^2) ^ 2 = 1 - (p * v)^2). { intros v Hv. rewrite <- Rsqr_pow2. apply Rsqr_sqrt. assert (0 < p * v < 1) by nra. nra. }
  assert (P0 : forall v, 0 <= sqrt (1 - (p * v)^2)) by (intros; apply sqrt_pos).
  assert (Y1 := E1 1 ltac:(lra)). assert (Y2 := E1 2 ltac:(lra)). assert (Z1 := P0 1). assert (Z2 := P0 2).
  split; [exact Hp|]. split; [unfold q; lra|].
  split; [unfold s1; set (u := sqrt _) in *; nra|]. split; [unfold s2; set (u := sqrt _) in *; nra|].
  unfold slowness, s1, s2. repeat split.
  - unfold p, q. replace ((sin x / 10)^2 + (cos x / 10)^2) with (((sin x)^2 + (cos x)^2) / 100) by field. rewrite SC. field.
  - replace ((sqrt (1 - (p * 1)^2) / 1)^2) with (sqrt (1 - (p * 1)^2) ^ 2) by field. rewrite Y1. field.
  - replace ((sqrt (1 - (p * 2)^2) / 2)^2) with (sqrt (1 - (p * 2)^2) ^ 2 / 4) by field. rewrite Y2. field.
Qed.
Lemma zoeppritz_ex : exists Rpp Rps,
  AVO_zoeppritz (Fin 10) (Fin 1) (Fin 1) (Fin 10) (Fin 2) (Fin 1) (Fin th0) = Ret (Fin Rpp, Fin Rps) /\
  forall Tpp Tps, ~ welded 10 1 1 10 2 1 p q q s1 s2 Rpp Rps Tpp Tps.
Proof.
  destruct ex_facts as (Hp & Hq & H1 & H2 & S0 & S1 & S2). destruct th0_facts as (T1 & T2 & _).
  assert (EN : forall sh, 0 < sh -> 0 < ar_D 1 1 2 1 p q q s1 s2 sh).
  { intros sh Hh. unfold ar_D, ar_E, ar_F, ar_G, ar_H, ar_a, ar_b, ar_c, ar_d.
    assert (0 < p^2 < 1/100) by nra. assert (0 < q * s2) by nra. assert (0 < q * sh) by nra.
    match goal with |- 0 < (?b * q + ?c * q) * (?b * s1 + ?c * s2) + ?G * ?H * _ => assert (X1 : 0 < (b * q + c * q) * (b * s1 + c * s2)); [|assert (X2 : 0 <= (-G) * (-H) * p^2); [|lra]] end.
    - apply Rmult_lt_0_compat; [nra|]. apply Rplus_lt_0_compat; apply Rmult_lt_0_compat; lra.
    - apply Rmult_le_pos; [apply Rmult_le_pos|]; lra. }
  assert (N2 := EN s2 ltac:(lra)). assert (N1 := EN s1 ltac:(lra)).
  assert (Eq : sqrt (1 - (p * 10)^2) / 10 = q).
  { unfold p, q. assert (SC := sc2 x). replace (1 - (sin x / 10 * 10)^2) with (Rsqr (cos x)) by (unfold Rsqr; replace ((sin x / 10 * 10)^2) with ((sin x)^2) by field; lra).
    rewrite sqrt_Rsqr; [reflexivity|]. unfold q in Hq. lra. }
  assert (Z := zoeppritz_eval 10 1 1 10 2 1 th0). cbv zeta in Z. rewrite T1 in Z. fold x in Z. fold p in Z. rewrite Eq in Z. fold q s1 s2 in Z.
  eexists _, _. split; [apply Z; lra|].
  intros Tpp Tps W. apply welded_iff in W; try assumption; try lra. destruct W as (_ & W & _). unfold ar_ps in W.
  set (n := - 2 * q * (ar_a 1 1 2 1 p * ar_b 1 1 2 1 p + ar_c 1 1 2 1 p * ar_d 1 1 2 1 * q * s2) * p * 10) in W.
  set (D2 := ar_D 1 1 2 1 p q q s1 s2 s2) in *. set (D1 := ar_D 1 1 2 1 p q q s1 s2 s1) in *.
  assert (0 < p^2 < 1/100) by nra. assert (Q2 : 2/100 < q * s2) by nra.
  assert (Nn : n <> 0).
  { unfold n. assert (0 < ar_a 1 1 2 1 p * ar_b 1 1 2 1 p + ar_c 1 1 2 1 p * ar_d 1 1 2 1 * q * s2).
    { unfold ar_a, ar_b, ar_c, ar_d. assert (0 <= p^2 * p^2) by nra. assert (0 <= p^2 * (q * s2)) by nra. lra. }
    set (k := _ + _) in *. assert (0 < q * k * p) by (apply Rmult_lt_0_compat; [apply Rmult_lt_0_compat|]; lra). lra. }
  assert (ND : D2 = D1).
  { apply (Rmult_eq_reg_l n); [|exact Nn]. symmetry. clearbody n D1 D2. transitivity (n / (1 * D2) * D2 * D1); [field; lra|]. rewrite W. field. lra. }
  unfold D2, D1, ar_D, ar_G, ar_H in ND.
  assert (X : ar_d 1 1 2 1 * q * (s1 - s2) * ((ar_a 1 1 2 1 p - ar_d 1 1 2 1 * q * s2) * p^2) = 0) by lra.
  unfold ar_d, ar_a in X. assert (Y : (s1 - s2) * (6 * p^2 + 6 * (q * s2)) = 0).
  { apply (Rmult_eq_reg_l (6 * q * p^2)); [lra|]. apply Rgt_not_eq. apply Rmult_lt_0_compat; lra. }
  apply Rmult_integral in Y as [Y|Y]; lra.
Qed.
End Ex.
