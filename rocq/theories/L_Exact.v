(** * L_Exact: lemmas for P_Exact *)
From Coq Require Import Reals Lra Lia List String.
From Coquelicot Require Import Coquelicot.
From Verif Require Import Fl RealLemmas Spec Spec5 Spec15 M_Utils M_EM M_Anis M_AVO L_EM1 L_Utils L_Anis L_AVO2.
Import ListNotations.
Open Scope R_scope.

Lemma disc_int c a : 0 < c -> 0 < a -> is_RInt (fun z => PI * (c^2 * (1 - (z / (a * c))^2))) (- (a * c)) (a * c) (4/3 * PI * a * c^3).
Proof.
  intros Hc Ha. evar_last.
  - apply (is_RInt_derive (fun z => PI * (c^2 * (z - z^3 / (3 * (a * c)^2))))).
    + intros x _. auto_derive; [trivial|]. field. lra.
    + intros x _. apply (ex_derive_continuous (fun z => PI * (c ^ 2 * (1 - (z / (a * c)) ^ 2)))). auto_derive. trivial.
  - unfold minus, plus, opp; cbn. field. lra.
Qed.
Lemma spheroid_vol c a v : 0 < c -> 0 < a -> spheroid_volume c a v -> v = 4/3 * PI * a * c^3.
Proof.
  intros Hc Ha (r & Hr & Hv). assert (Pac : 0 < a * c) by (apply Rmult_lt_0_compat; lra).
  assert (Y : is_RInt (fun z => PI * r z ^ 2) (- (a * c)) (a * c) (4/3 * PI * a * c^3)).
  { generalize (disc_int c a Hc Ha). apply is_RInt_ext. intros x Hx. rewrite Rmin_left, Rmax_right in Hx by lra.
    destruct (Hr x ltac:(lra)) as [_ E]. replace (r x ^ 2) with (c^2 * (r x / c)^2) by (field; lra).
    replace ((r x / c)^2) with (1 - (x / (a * c))^2) by lra. reflexivity. }
  rewrite <- (is_RInt_unique _ _ _ _ Hv). apply is_RInt_unique, Y.
Qed.
Lemma spheroid_vol_ex c a : 0 < c -> 0 < a -> spheroid_volume c a (4/3 * PI * a * c^3).
Proof.
  intros Hc Ha. assert (Pac : 0 < a * c) by (apply Rmult_lt_0_compat; lra).
  exists (fun z => c * sqrt (1 - (z / (a * c))^2)). 
  assert (S : forall z, - (a * c) <= z <= a * c -> 0 <= 1 - (z / (a * c))^2).
  { intros z Hz. assert (-1 <= z / (a * c) <= 1) by (split; [apply le_div_iff | apply div_le_iff]; lra). nra. }
  split.
  - intros z Hz. split; [apply Rmult_le_pos; [lra | apply sqrt_pos]|].
    replace (c * sqrt (1 - (z / (a * c))^2) / c) with (sqrt (1 - (z / (a * c))^2)) by (field; lra). rewrite pow2_sqrt by auto. ring.
  - generalize (disc_int c a Hc Ha). apply is_RInt_ext. intros x Hx. rewrite Rmin_left, Rmax_right in Hx by lra.
    rewrite Rpow_mult_distr, pow2_sqrt by (apply S; lra). reflexivity.
Qed.

(** ** Hashin-Shtrikman with one modulus equal *)
Lemma HS_equal_shear_py f K1 K2 G bound :
  EM_HS PyFloat (Fin f) (Fin K1) (Fin K2) (Fin G) (Fin G) bound = Raise ZeroDivisionError.
Proof.
  unfold EM_HS. destruct (String.eqb bound "upper"); cbn [fadd fsub fmul fdiv];
  repeat (destruct (Req_EM_T _ _); cbn [fadd fsub fmul fdiv bind]; try reflexivity); try (exfalso; lra).
Qed.
Lemma HS_equal_bulk_np f K G1 G2 bound : 0 < K -> 0 < G1 -> 0 < G2 -> G1 <> G2 -> 0 <= f <= 1 ->
  EM_HS NumPy (Fin f) (Fin K) (Fin K) (Fin G1) (Fin G2) bound =
  Ret (Fin K, Fin (walpole (zG K (if String.eqb bound "upper" then G1 else G2)) f G1 G2)).
Proof.
  intros HK H1 H2 N Hf. unfold EM_HS. destruct (String.eqb bound "upper").
  - assert (Pz := zG_pos K G1 HK H1). destruct (walpole_hs (zG K G1) f G1 G2 N Hf ltac:(lra) ltac:(lra)) as [D2 E2].
    assert (T := zG_temp K G1 HK H1).
    assert (Q2 : 2 * f * ((K + 2 * G1) / (5 * G1 * (K + 4 * G1 / 3))) = f * (1 / (G1 + zG K G1))) by (rewrite T; field; lra).
    rewrite <- Q2 in D2, E2. fls. replace (K - K) with 0 by ring.
    repeat (first [fl1 | flc | rewrite fdiv_zero_np by lra | rewrite fadd_inf_l | rewrite fdiv_inf]; cbv beta).
    rewrite E2. reteq. ring.
  - assert (Pz := zG_pos K G2 HK H2). destruct (walpole_hs (zG K G2) (1 - f) G2 G1 ltac:(congruence) ltac:(lra) ltac:(lra) ltac:(lra)) as [D2 E2].
    rewrite <- walpole_sym in E2. replace (1 - (1 - f)) with f in E2 by ring.
    assert (T := zG_temp K G2 HK H2).
    assert (Q2 : 2 * (1 - f) * ((K + 2 * G2) / (5 * G2 * (K + 4 * G2 / 3))) = (1 - f) * (1 / (G2 + zG K G2))) by (rewrite T; field; lra).
    rewrite <- Q2 in D2, E2. fls. replace (K - K) with 0 by ring.
    repeat (first [fl1 | flc | rewrite fdiv_zero_np by lra | rewrite fadd_inf_l | rewrite fdiv_inf]; cbv beta).
    rewrite E2. reteq. ring.
Qed.
Lemma HS_equal_shear_np f K1 K2 G bound : 0 < K1 -> 0 < K2 -> 0 < G -> K1 <> K2 -> 0 <= f <= 1 ->
  EM_HS NumPy (Fin f) (Fin K1) (Fin K2) (Fin G) (Fin G) bound = Ret (Fin (walpole (zK G) f K1 K2), Fin G).
Proof.
  intros H1 H2 HG N Hf. assert (Pk : 0 < zK G) by (apply zK_pos; auto). unfold EM_HS. destruct (String.eqb bound "upper").
  - destruct (walpole_hs (zK G) f K1 K2 N Hf ltac:(lra) ltac:(lra)) as [D1 E1].
    assert (Q : K1 + zK G = K1 + 4 * G / 3) by (unfold zK; field). rewrite Q in D1, E1.
    fls. replace (G - G) with 0 by ring.
    repeat (first [fl1 | flc | rewrite fdiv_zero_np by lra | rewrite fadd_inf_l | rewrite fdiv_inf]; cbv beta).
    rewrite E1. reteq. ring.
  - destruct (walpole_hs (zK G) (1 - f) K2 K1 ltac:(congruence) ltac:(lra) ltac:(lra) ltac:(lra)) as [D1 E1].
    rewrite <- walpole_sym in E1. replace (1 - (1 - f)) with f in E1 by ring.
    assert (Q : K2 + zK G = K2 + 4 * G / 3) by (unfold zK; field). rewrite Q in D1, E1.
    fls. replace (G - G) with 0 by ring.
    repeat (first [fl1 | flc | rewrite fdiv_zero_np by lra | rewrite fadd_inf_l | rewrite fdiv_inf]; cbv beta).
    rewrite E1. reteq. ring.
Qed.

(** ** The self-consistent equations of spherical pores have at most one positive solution *)
Definition sc_pores (Ks Gs phi a b : R) : Prop :=
  1 / a = 1 / Ks + (1 / a + 3 / (4 * b)) * phi /\ 1 / b = 1 / Gs + (15 * a + 20 * b) / (9 * a + 8 * b) * phi / b.
Definition hs (s : R) := (15 * s + 20) / (9 * s + 8).
Lemma hs_decr s s' : 0 < s -> s <= s' -> hs s' <= hs s.
Proof.
  intros H L. unfold hs. apply div_le_iff; [lra|]. unfold Rdiv. rewrite Rmult_assoc, (Rmult_comm (/ _)), <- Rmult_assoc.
  apply le_div_iff; [lra|]. nra.
Qed.
Lemma sc_pores_s Ks Gs phi a b : 0 < Ks -> 0 < Gs -> 0 < a -> 0 < b -> sc_pores Ks Gs phi a b ->
  a = Ks * (1 - phi - 3/4 * phi * (a / b)) /\ b = Gs * (1 - phi * hs (a / b)).
Proof.
  intros HK HG Ha Hb [E1 E2]. split.
  - apply (f_equal (fun x => x * (a * Ks))) in E1. 
    replace (1 / a * (a * Ks)) with Ks in E1 by (field; lra).
    replace ((1 / Ks + (1 / a + 3 / (4 * b)) * phi) * (a * Ks)) with (a + phi * Ks * (1 + 3/4 * (a / b))) in E1 by (field; lra). lra.
  - apply (f_equal (fun x => x * (b * Gs))) in E2. 
    replace (1 / b * (b * Gs)) with Gs in E2 by (field; lra).
    replace ((1 / Gs + (15 * a + 20 * b) / (9 * a + 8 * b) * phi / b) * (b * Gs)) with (b + Gs * (phi * hs (a / b))) in E2 by (unfold hs; field; lra). lra.
Qed.
Lemma sc_pores_le Ks Gs phi a b a' b' : 0 < Ks -> 0 < Gs -> 0 <= phi -> 0 < a -> 0 < b -> 0 < a' -> 0 < b' ->
  sc_pores Ks Gs phi a b -> sc_pores Ks Gs phi a' b' -> a / b <= a' / b' -> a = a' /\ b = b'.
Proof.
  intros HK HG Hp Ha Hb Ha' Hb' E E' L.
  destruct (sc_pores_s _ _ _ _ _ HK HG Ha Hb E) as [A B]. destruct (sc_pores_s _ _ _ _ _ HK HG Ha' Hb' E') as [A' B'].
  assert (Ps : 0 < a / b) by (apply Rdiv_lt_0_compat; lra).
  assert (H := hs_decr _ _ Ps L).
  assert (LA : a' <= a). { rewrite A, A'. apply Rmult_le_compat_l; [lra|]. assert (phi * (a / b) <= phi * (a' / b')) by (apply Rmult_le_compat_l; lra). lra. }
  assert (LB : b <= b'). { rewrite B, B'. apply Rmult_le_compat_l; [lra|]. assert (phi * hs (a' / b') <= phi * hs (a / b)) by (apply Rmult_le_compat_l; lra). lra. }
  assert (X : a * b' <= a' * b). { assert (Pbb : 0 <= b * b') by (apply Rmult_le_pos; lra). apply (Rmult_le_compat_r (b * b') _ _ Pbb) in L.
    replace (a / b * (b * b')) with (a * b') in L by (field; lra). replace (a' / b' * (b * b')) with (a' * b) in L by (field; lra). exact L. }
  assert (a * b <= a * b') by (apply Rmult_le_compat_l; lra). assert (a * b <= a' * b) by lra. assert (a <= a') by (apply Rmult_le_reg_r with b; lra).
  assert (EA : a = a') by lra. split; [exact EA|]. subst a'. assert (b' <= b) by (apply Rmult_le_reg_l with a; lra). lra.
Qed.
Lemma sc_pores_unique Ks Gs phi a b a' b' : 0 < Ks -> 0 < Gs -> 0 <= phi -> 0 < a -> 0 < b -> 0 < a' -> 0 < b' ->
  sc_pores Ks Gs phi a b -> sc_pores Ks Gs phi a' b' -> a = a' /\ b = b'.
Proof.
  intros HK HG Hp Ha Hb Ha' Hb' E E'. destruct (Rle_lt_dec (a / b) (a' / b')) as [L|L].
  - apply (sc_pores_le Ks Gs phi a b a' b'); assumption.
  - destruct (sc_pores_le Ks Gs phi a' b' a b) as [X Y]; try assumption; [lra|]. split; symmetry; assumption.
Qed.
Lemma sc_pores_none Ks Gs phi a b : 0 < Ks -> 0 < Gs -> 1/2 <= phi -> 0 < a -> 0 < b -> ~ sc_pores Ks Gs phi a b.
Proof.
  intros HK HG Hp Ha Hb E. destruct (sc_pores_s _ _ _ _ _ HK HG Ha Hb E) as [A B].
  assert (Ps : 0 < a / b) by (apply Rdiv_lt_0_compat; lra).
  assert (P1 : 0 < 1 - phi - 3/4 * phi * (a / b)) by (apply Rmult_lt_reg_l with Ks; lra).
  assert (P2 : 0 < 1 - phi * hs (a / b)) by (apply Rmult_lt_reg_l with Gs; lra).
  assert (S : a / b < 4/3) by nra.
  assert (H : 2 <= hs (a / b)). { replace 2 with (hs (4/3)) by (unfold hs; field). apply hs_decr; lra. }
  nra.
Qed.

(** ** AVO_abe on identical layers, NumPy *)
Lemma abe_identical_np vp vs r : 0 < vs -> vs < vp -> 0 < r ->
  AVO_AVO_abe NumPy (Fin vp) (Fin vs) (Fin r) (Fin vp) (Fin vs) (Fin r) = Ret (Fin 0, NaN, Fin 0, Fin 0, Fin 0).
Proof.
  intros H1 H2 H3. unfold AVO_AVO_abe.
  assert (M1 : (r + r) / 2 <> 0) by lra. assert (M2 : (vp + vp) / 2 <> 0) by lra. assert (M3 : (vs + vs) / 2 <> 0) by lra.
  assert (N1 : vs <> 0) by lra. assert (N3 : vp <> 0) by lra.
  assert (R1 : 0 < (vp / vs)^2 - 1). { assert (1 < vp / vs) by (apply lt_div_iff; lra). nra. }
  assert (V1 : 0 < vp^2 - vs^2) by nra. assert (Hs : poisson_v vp vs < 1/2) by (apply s_lt; auto).
  assert (X1 : (1/2 * (vp / vs)^2 - 1) / ((vp / vs)^2 - 1) = poisson_v vp vs) by (unfold poisson_v; field; repeat split; lra).
  do 9 (repeat fl1; repeat (rewrite fdiv_fin by (assumption || lra)); cbv beta zeta). rewrite ?X1.
  do 9 (repeat fl1; repeat (rewrite fdiv_fin by (assumption || lra)); cbv beta zeta).
  assert (Z : forall x, (vp - vp) / x = 0 /\ (r - r) / x = 0) by (intros x; unfold Rdiv; split; ring).
  rewrite !(proj1 (Z ((vp + vp) / 2))), !(proj2 (Z ((r + r) / 2))).
  replace (fdiv NumPy (Fin 0) (Fin (0 + 0))) with NaN by (rewrite Rplus_0_r; cbn [fdiv]; destruct (Req_EM_T 0 0) as [_|N]; [reflexivity | contradiction N; reflexivity]).
  cbn [bind fadd fmul fsub]. match goal with |- context [fdiv NumPy NaN (Fin ?b)] => replace (fdiv NumPy NaN (Fin b)) with NaN by (cbn [fdiv]; destruct (Req_EM_T b 0); reflexivity) end. cbn [bind fadd fmul fsub].
  set (v := (poisson_v vp vs + poisson_v vp vs) / 2) in *. assert (SB : (1 - v)^2 <> 0) by (apply pow_nonzero; unfold v; lra).
  assert (VP : ((vp + vp) / 2)^2 <> 0) by (apply pow_nonzero; exact M2).
  assert (VR : ((vp + vp) / 2)^2 * ((r + r) / 2) <> 0) by (apply Rmult_integral_contrapositive; split; assumption).
  rewrite (fdiv_fin NumPy _ ((1 - v)^2)) by exact SB. cbn [bind fadd fmul fsub].
  do 20 (repeat fl1; repeat (rewrite fdiv_fin by (assumption || lra)); cbv beta zeta).
  reteq; try reflexivity; unfold Rdiv; ring.
Qed.

(** ** Isotropic media: one velocity per wave at every angle *)
Lemma vel_azi_iso_all m K G rho : 0 <= G -> 0 <= 3 * K + G -> 0 < rho -> exists vp vs C,
  utils_V m (Fin K) (Fin G) (Fin rho) = Ret (Fin (1000 * vp), Fin (1000 * vs)) /\ utils_write_iso m (Fin K) (Fin G) = Ret (finmat C) /\
  forall az, Anis_vel_azi_VTI m (finmat C) (Fin rho) (Fin az) = Ret (Fin vp, Fin vs, Fin vs) /\
  Anis_vel_azi_HTI m (finmat C) (Fin rho) (Fin az) = Ret (Fin vp, Fin vs, Fin vs).
Proof.
  intros HG HK Hr. exists (sqrt ((K + 4/3 * G) / rho)), (sqrt (G / rho)).
  destruct (write_VTI_HTI_iso m K G) as (C & EC & EV & EH). exists C.
  rewrite write_VTI_eval in EV. rewrite write_HTI_eval in EH.
  assert (EV' : finmat (vti (K + 4/3 * G) (K + 4/3 * G) (K - 2/3 * G) G G) = finmat C) by congruence.
  assert (EH' : finmat (hti (K + 4/3 * G) (K + 4/3 * G) (K - 2/3 * G) G G) = finmat C) by congruence. clear EV EH.
  assert (D1 : 0 <= (K + 4/3 * G) / rho) by (apply Rmult_le_pos; [lra | left; apply Rinv_0_lt_compat; lra]).
  assert (D2 : 0 <= G / rho) by (apply Rmult_le_pos; [lra | left; apply Rinv_0_lt_compat; lra]).
  split; [|split; [exact EC|]].
  { unfold utils_V. rewrite fmul_fin, fadd_fin, !fdiv_fin, !fsqrt_fin, !fmul_fin by lra. cbn [bind]. reteq; ring. }
  assert (ST : vti_stable (K + 4/3 * G) (K + 4/3 * G) (K - 2/3 * G) G G).
  { unfold vti_stable. repeat split; try lra. assert (0 <= (K + G/3) * G) by (apply Rmult_le_pos; lra). nra. }
  intros az. assert (CS := cs1 az). set (s := sin (rad az)) in *. set (c := cos (rad az)) in *.
  assert (HC : c^2 = 1 - s^2) by lra.
  assert (RQ : forall d b, d^2 + 4 * b^2 = (K + G/3)^2 -> sqrt (d^2 + 4 * b^2) = K + G/3) by (intros d b E; rewrite E; apply sqrt_pow2; lra).
  split.
  - rewrite <- EV', (vti_vel_eval m _ _ _ _ _ rho az ST Hr). fold s c. cbv zeta. rewrite RQ.
    + reteq; f_equal; rewrite ?HC; field; lra.
    + replace (((K - 2/3 * G + G) * s * c)^2) with ((K + G/3)^2 * (s^2 * c^2)) by field. rewrite HC. field.
  - rewrite <- EH', (hti_vel_eval m _ _ _ _ _ rho az ST Hr). fold s c. cbv zeta. rewrite RQ.
    + reteq; f_equal; rewrite ?HC; field; lra.
    + replace (((K - 2/3 * G + G) * s * c)^2) with ((K + G/3)^2 * (s^2 * c^2)) by field. rewrite HC. field.
Qed.
