(** * Fluid.py: statements about Gassmann and substitution in terms of the calls alone. *)
From Verif Require Import Fl Cx M_Utils M_EM M_Anis M_Fluid Spec Spec2 RealLemmas L_Utils L_Anis L_Fluid1 L_Fluid4 L_Fluid6.
Open Scope R_scope.

Lemma Gass m Kd Gd K0 Kf phi : 0 < K0 -> 0 < Kf <= K0 -> 0 <= Kd < K0 -> 0 < phi <= 1 ->
  Fluid_Gassmann m (Fin Kd) (Fin Gd) (Fin K0) (Fin Kf) (Fin phi) = Ret (Fin (gK Kd K0 Kf phi), Fin Gd).
Proof.
  intros H0 Hf Hd Hp. assert (x := gb_pos Kd K0 H0 Hd). assert (y := gB_pos Kd K0 Kf phi H0 Hf ltac:(lra)).
  apply Gassmann_eval; lra.
Qed.
Lemma Gassmann_pack m Kd Gd K0 Kf phi : 0 < Kf < K0 -> 0 <= Kd < K0 -> 0 < phi <= 1 ->
  exists Ks, Fluid_Gassmann m (Fin Kd) (Fin Gd) (Fin K0) (Fin Kf) (Fin phi) = Ret (Fin Ks, Fin Gd) /\
    Kd < Ks < K0 /\ Ks / (K0 - Ks) = Kd / (K0 - Kd) + Kf / (phi * (K0 - Kf)) /\
    (0 < Kd -> forall s, (exists p e, undrained K0 Kd Kf phi s p e) /\
       (forall p e, undrained K0 Kd Kf phi s p e -> s = Ks * e)).
Proof.
  intros Hf Hd Hp. exists (gK Kd K0 Kf phi). split; [apply Gass; lra|].
  destruct (gK_range Kd K0 Kf phi ltac:(lra) ltac:(lra) Hd Hp) as (L & U).
  destruct (gK_ratio Kd K0 Kf phi ltac:(lra) ltac:(lra) Hd Hp ltac:(lra)) as (A & B).
  split; [lra|split; [exact B|]]. intros. apply gK_undrained; lra.
Qed.
Lemma Gassmann_mono m K0 Kd Kd' Gd Gd' Kf Kf' phi : 0 < Kf -> Kf <= Kf' -> Kf' < K0 -> 0 <= Kd -> Kd <= Kd' -> Kd' < K0 -> 0 < phi <= 1 ->
  exists Ks Ks', Fluid_Gassmann m (Fin Kd) (Fin Gd) (Fin K0) (Fin Kf) (Fin phi) = Ret (Fin Ks, Fin Gd) /\
    Fluid_Gassmann m (Fin Kd') (Fin Gd') (Fin K0) (Fin Kf') (Fin phi) = Ret (Fin Ks', Fin Gd') /\ Ks <= Ks' /\ (Kf < Kf' -> Ks < Ks').
Proof.
  intros. exists (gK Kd K0 Kf phi), (gK Kd' K0 Kf' phi). split; [apply Gass; lra|split; [apply Gass; lra|]].
  assert (A : gK Kd K0 Kf phi <= gK Kd' K0 Kf phi) by (apply gK_mono_Kd; lra). split.
  - apply Rle_trans with (1 := A). apply gK_mono_Kf; lra.
  - intros. apply Rle_lt_trans with (1 := A). apply gK_strict_Kf; lra.
Qed.
(** Stiffer for smaller porosity: with the frame held fixed, a smaller pore volume holds a stiffer fluid column. *)
Lemma Gassmann_phi m K0 Kd Gd Kf phi phi' : 0 < Kf < K0 -> 0 <= Kd < K0 -> 0 < phi -> phi < phi' -> phi' <= 1 ->
  exists Ks Ks', Fluid_Gassmann m (Fin Kd) (Fin Gd) (Fin K0) (Fin Kf) (Fin phi) = Ret (Fin Ks, Fin Gd) /\
    Fluid_Gassmann m (Fin Kd) (Fin Gd) (Fin K0) (Fin Kf) (Fin phi') = Ret (Fin Ks', Fin Gd) /\ Ks' < Ks.
Proof.
  intros Hf Hd Hp Hpp Hp1. exists (gK Kd K0 Kf phi), (gK Kd K0 Kf phi'). split; [apply Gass; lra|split; [apply Gass; lra|]].
  unfold gK. apply Rplus_lt_compat_l.
  assert (x := gb_pos Kd K0 ltac:(lra) ltac:(lra)). assert (y := gB_pos Kd K0 Kf phi ltac:(lra) ltac:(lra) ltac:(lra)).
  assert (B : 0 < 1 - Kd / K0) by (assert (Kd / K0 < 1); [apply div_lt_iff; lra|lra]).
  unfold Rdiv. apply Rmult_lt_compat_l; [apply pow_lt; auto|]. apply Rinv_lt_contravar.
  - apply Rmult_lt_0_compat; [lra|]. assert (y' := gB_pos Kd K0 Kf phi' ltac:(lra) ltac:(lra) ltac:(lra)). lra.
  - unfold gB. assert (0 < (phi' - phi) * (/ Kf - / K0)).
    { apply Rmult_lt_0_compat; [lra|]. assert (/ K0 < / Kf) by (apply Rinv_lt_contravar; [apply Rmult_lt_0_compat|]; lra). lra. }
    unfold Rdiv. nra.
Qed.
Lemma Gassmann_dry_limit m K0 Kd Gd phi : 0 <= Kd < K0 -> 0 < phi <= 1 ->
  forall eps, 0 < eps -> exists d, 0 < d /\ forall Kf, 0 < Kf < d -> exists Ks,
    Fluid_Gassmann m (Fin Kd) (Fin Gd) (Fin K0) (Fin Kf) (Fin phi) = Ret (Fin Ks, Fin Gd) /\ Kd < Ks < Kd + eps.
Proof.
  intros Hd Hp eps He. exists (Rmin K0 (phi * eps)). split; [apply Rmin_pos; [lra|apply Rmult_lt_0_compat; lra]|].
  intros Kf Hf. assert (A := Rmin_l K0 (phi * eps)). assert (B := Rmin_r K0 (phi * eps)).
  exists (gK Kd K0 Kf phi). split; [apply Gass; lra|].
  destruct (gK_range Kd K0 Kf phi ltac:(lra) ltac:(lra) Hd Hp) as (L & U). split; [exact L|].
  unfold gK. apply Rplus_lt_compat_l.
  assert (x := gb_pos Kd K0 ltac:(lra) ltac:(lra)). assert (y := gB_pos Kd K0 Kf phi ltac:(lra) ltac:(lra) ltac:(lra)).
  assert (B0 : 0 < 1 - Kd / K0 <= 1).
  { assert (Kd / K0 < 1) by (apply div_lt_iff; lra). assert (0 <= Kd / K0) by (apply Rmult_le_pos; [lra|left; apply Rinv_0_lt_compat; lra]). lra. }
  apply div_lt_iff; [lra|]. 
  (* b^2 <= b < eps (phi/Kf) b ... *)
  assert (G : phi / Kf * (1 - Kd / K0) <= gB Kd K0 Kf phi).
  { unfold gB. replace (phi / Kf + (1 - phi) / K0 - Kd / K0^2) with (phi / Kf + ((1 - phi) - Kd / K0) / K0) by (field; lra).
    assert (H1 : phi / K0 <= phi / Kf) by (unfold Rdiv; apply Rmult_le_compat_l; [lra|apply Rinv_le_contravar; lra]).
    assert (H2 : 0 <= Kd / K0) by lra.
    assert (H3 : phi / Kf * (Kd / K0) >= phi / K0 * (Kd / K0)) by (apply Rmult_ge_compat_r; lra).
    assert (H4 : (1 - phi - Kd / K0) / K0 + phi / K0 * (Kd / K0) = (1 - phi) * (1 - Kd / K0) / K0) by (field; lra).
    assert (H5 : 0 <= (1 - phi) * (1 - Kd / K0) / K0) by (apply Rmult_le_pos; [apply Rmult_le_pos|left; apply Rinv_0_lt_compat]; lra).
    lra. }
  assert (E : 1 < eps * (phi / Kf)) by (replace (eps * (phi / Kf)) with (phi * eps / Kf) by (field; lra); apply lt_div_iff; lra).
  set (b := 1 - Kd / K0) in *. set (q := phi / Kf) in *.
  assert (b < eps * q * b) by nra. assert (eps * (q * b) <= eps * gB Kd K0 Kf phi) by (apply Rmult_le_compat_l; lra).
  assert (b^2 <= b) by nra. lra.
Qed.
(** The two frames are recovered: Gassmann is injective in the frame modulus. *)
Lemma Sub_inv m phi K0 K f1 f2 r : Fluid_Gassmann_sub m (Fin phi) (Fin K0) (Fin K) (Fin f1) (Fin f2) = Ret (Fin r) ->
  K0 - K <> 0 /\ phi * (K0 - f1) <> 0 /\ phi * (K0 - f2) <> 0 /\ 1 + subA phi K0 K f1 f2 <> 0.
Proof.
  unfold Fluid_Gassmann_sub, subA, rat. cbn [fsub fmul fneg fadd fdiv]. 
  destruct (Req_EM_T (K0 - K) 0), (Req_EM_T (phi * (K0 - f1)) 0), (Req_EM_T (phi * (K0 - f2)) 0), m; cbn;
  repeat match goal with |- context [if Req_EM_T ?a ?b then _ else _] => destruct (Req_EM_T a b); cbn end; intros E;
  try discriminate E; auto.
Qed.
Lemma Sub_compose m phi K0 K f1 f2 f3 K2 K3 :
  Fluid_Gassmann_sub m (Fin phi) (Fin K0) (Fin K) (Fin f1) (Fin f2) = Ret (Fin K2) ->
  Fluid_Gassmann_sub m (Fin phi) (Fin K0) (Fin K) (Fin f1) (Fin f3) = Ret (Fin K3) -> K0 <> 0 ->
  Fluid_Gassmann_sub m (Fin phi) (Fin K0) (Fin K2) (Fin f2) (Fin f3) = Ret (Fin K3).
Proof.
  intros E2 E3 H0. destruct (Sub_inv _ _ _ _ _ _ _ E2) as (A & B & C & D). destruct (Sub_inv _ _ _ _ _ _ _ E3) as (_ & _ & F & G).
  assert (phi <> 0) by (intros ->; apply B; ring).
  assert (K0 - f1 <> 0) by (intros X; apply B; rewrite X; ring). assert (K0 - f2 <> 0) by (intros X; apply C; rewrite X; ring).
  assert (K0 - f3 <> 0) by (intros X; apply F; rewrite X; ring).
  rewrite <- E3. eapply Sub_trans; eauto.
Qed.
Lemma Sub_physical m phi K0 K f1 f2 : 0 < phi <= 1 -> 0 < f1 < K0 -> 0 < f2 < K0 -> K < K0 ->
  f1 / (phi * (K0 - f1)) <= K / (K0 - K) -> exists K2,
  Fluid_Gassmann_sub m (Fin phi) (Fin K0) (Fin K) (Fin f1) (Fin f2) = Ret (Fin K2) /\ 0 < K2 < K0 /\
  K2 / (K0 - K2) - f2 / (phi * (K0 - f2)) = K / (K0 - K) - f1 / (phi * (K0 - f1)) /\
  (f1 < f2 -> K < K2) /\ (f2 < f1 -> K2 < K) /\
  Fluid_Gassmann_sub m (Fin phi) (Fin K0) (Fin K2) (Fin f2) (Fin f1) = Ret (Fin K).
Proof.
  intros Hp H1 H2 HK HS.
  assert (Ratio : forall f, 0 < f < K0 -> 0 < f / (phi * (K0 - f))) by (intros; apply Rdiv_lt_0_compat; [|apply Rmult_lt_0_compat]; lra).
  assert (A1 := Ratio f1 H1). assert (A2 := Ratio f2 H2).
  assert (P : 0 < subA phi K0 K f1 f2) by (unfold subA, rat; lra).
  exists (unrat K0 (subA phi K0 K f1 f2)). set (A := subA phi K0 K f1 f2) in *.
  assert (E : Fluid_Gassmann_sub m (Fin phi) (Fin K0) (Fin K) (Fin f1) (Fin f2) = Ret (Fin (unrat K0 A))) by (apply Sub_eval; fold A; lra).
  split; [exact E|].
  destruct (rat_unrat K0 ltac:(lra) A ltac:(lra)) as (N & RR).
  assert (U : 0 < unrat K0 A < K0).
  { unfold unrat. split; [apply Rdiv_lt_0_compat; [apply Rmult_lt_0_compat|]; lra|]. apply div_lt_iff; [lra|]. nra. }
  split; [exact U|]. split; [unfold rat in RR; rewrite RR; unfold A, subA, rat; ring|].
  assert (K_rat : forall x y, x < K0 -> y < K0 -> x / (K0 - x) < y / (K0 - y) -> x < y).
  { intros x y Hx Hy L. apply Rnot_le_lt. intros C. apply (Rlt_not_le _ _ L). apply div_le_div; try lra. nra. }
  assert (F_rat : forall x y, 0 < x < K0 -> 0 < y < K0 -> x < y -> x / (phi * (K0 - x)) < y / (phi * (K0 - y))).
  { intros x y Hx Hy L. apply div_lt_div; try (apply Rmult_lt_0_compat; lra). 
    assert (0 < phi * (K0 * (y - x))) by (repeat apply Rmult_lt_0_compat; lra). nra. }
  split; [|split].
  - intros L. apply K_rat; try lra. unfold rat in RR. rewrite RR. assert (X := F_rat f1 f2 H1 H2 L). unfold A, subA, rat. lra.
  - intros L. apply K_rat; try lra. unfold rat in RR. rewrite RR. assert (X := F_rat f2 f1 H2 H1 L). unfold A, subA, rat. lra.
  - eapply Sub_compose; [exact E| |lra]. apply Sub_self; lra.
Qed.

(** ** Brie: a larger exponent gives a softer mixture *)
Lemma Brie_exponent m Kw Kg S e e' : 0 <= S <= 1 -> 0 < e -> e <= e' -> Kg <= Kw -> exists B B',
  Fluid_Brie m (Fin Kw) (Fin Kg) (Fin S) (Fin e) = Ret (Fin B) /\ Fluid_Brie m (Fin Kw) (Fin Kg) (Fin S) (Fin e') = Ret (Fin B') /\ B' <= B.
Proof.
  intros HS He Hee HK. exists ((Kw - Kg) * bS S e + Kg), ((Kw - Kg) * bS S e' + Kg). rewrite !Brie_any by lra.
  split; [reflexivity|split; [reflexivity|]]. apply Rplus_le_compat_r, Rmult_le_compat_l; [lra|]. apply bS_e; lra.
Qed.
(** ** Squirt, with the nondegeneracy condition written out *)
Lemma Squirt_iso' m s0 s1 h0 h1 :
  let d0 := s0 - h0 in let d1 := s1 - h1 in let V := vol5 d0 d1 d1 d0 in
  V <> 0 -> 2 * V <> 2 * d0 + d0 + 4 * ((d0 - d1) / 2) + 4 * (d0 - d1) ->
  exists w0 w1 w2 w3 w4,
  Fluid_Squirt_anisotropic m (Fin s0, Fin s1, Fin s1, Fin s0, Fin ((s0 - s1) / 2)) (Fin h0, Fin h1, Fin h1, Fin h0, Fin ((h0 - h1) / 2))
  = Ret [Fin w0; Fin w1; Fin w2; Fin w3; Fin w4] /\ w0 = w3 /\ w1 = w2 /\
  (w4 = (w0 - w1) / 2 <-> s0 - s1 = h0 - h1).
Proof.
  intros d0 d1 V HV HT. apply Squirt_iso; [exact HV|]. unfold sqT. fold d0 d1. fold V.
  intros E. apply HT. apply (f_equal (fun x => x * V)) in E. unfold Rdiv in E.
  rewrite Rmult_minus_distr_r, Rmult_assoc, Rinv_l, Rmult_0_l in E by exact HV.
  replace ((s0 - s1) * / 2 - (h0 - h1) * / 2) with ((d0 - d1) / 2) in E by (unfold d0, d1; field). lra.
Qed.
Lemma Squirt_vol' m s0 s1 s2 s3 s4 h0 h1 h2 h3 h4 :
  let V := vol5 (s0 - h0) (s1 - h1) (s2 - h2) (s3 - h3) in
  V <> 0 -> 2 * V <> 2 * (s0 - h0) + (s3 - h3) + 4 * (s4 - h4) + 4 * (s0 - h0 - (s1 - h1)) ->
  exists w0 w1 w2 w3 w4,
  Fluid_Squirt_anisotropic m (Fin s0, Fin s1, Fin s2, Fin s3, Fin s4) (Fin h0, Fin h1, Fin h2, Fin h3, Fin h4)
  = Ret [Fin w0; Fin w1; Fin w2; Fin w3; Fin w4] /\ vol5 w0 w1 w2 w3 = vol5 h0 h1 h2 h3.
Proof.
  intros V HV HT. apply Squirt_vol; [exact HV|]. unfold sqT. fold V.
  intros E. apply HT. apply (f_equal (fun x => x * V)) in E. unfold Rdiv in E.
  rewrite Rmult_minus_distr_r, Rmult_assoc, Rinv_l, Rmult_0_l in E by exact HV. lra.
Qed.
