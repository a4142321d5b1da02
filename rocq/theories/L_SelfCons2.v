(** * L_SelfCons2: pores without rigidity in the self-consistent equations *)
From Coq Require Import Reals Lra Lia List.
From Verif Require Import Fl RealLemmas Spec Spec7 M_EM L_EM5 L_EM8 L_Shape L_Dem L_Dem2 L_Dem3 L_Miranda L_SelfCons.
From Coquelicot Require Import Coquelicot.
Import ListNotations.
Open Scope R_scope.
Local Notation Forall := List.Forall.
Lemma tk_low x : 0 <= x <= PI / 2 -> 0 <= tq x * sin x ^ 2 - cos x * tN x - 4/15 * sin x ^ 5.
Proof.
  intros H. d0 (fun x => tq x * sin x ^ 2 - cos x * tN x - 4/15 * sin x ^ 5) (fun x => 2 * sin x ^ 4 - sin x * (tq x * cos x) + sin x * tN x - 4/3 * (sin x ^ 4 * cos x)) x.
  - trig c.
  - destruct (scpos c) as (? & ?); [lra|]. assert (L := tq_hi c ltac:(lra)). assert (LN := tN_pos c ltac:(lra)). assert (0 <= sin c ^ 4) by (apply pow_le; lra).
    assert (sin c * (tq c * cos c) <= sin c * (2/3 * sin c ^ 3)) by (apply Rmult_le_compat_l; lra).
    assert (0 <= sin c * tN c) by (apply Rmult_le_pos; lra). assert (sin c ^ 4 * cos c <= sin c ^ 4 * 1) by (apply Rmult_le_compat_l; lra). lra.
Qed.
Lemma obl_e al : 0 < al < 1 -> 4/15 * al <= obl_f al + obl_theta al.
Proof.
  intros H. assert (PP := PI_RGT_0). assert (Q : 0 < 1 - al^2) by nra. assert (S0 := sqrt_lt_R0 _ Q). assert (S2 : sqrt (1 - al^2) ^ 2 = 1 - al^2) by (rewrite <- Rsqr_pow2; apply Rsqr_sqrt; lra).
  assert (C : cos (acos al) = al) by (apply cos_acos; lra). assert (Sn : sin (acos al) = sqrt (1 - al^2)).
  { rewrite sin_acos by lra. f_equal. unfold Rsqr. ring. }
  assert (B := acos_bound al). assert (X : 0 <= acos al <= PI / 2).
  { split; [lra|]. destruct (Rle_or_lt (acos al) (PI / 2)) as [?|L]; [lra|]. exfalso.
    assert (cos (acos al) <= 0) by (apply cos_le_0; lra). lra. }
  assert (L5 := tk_low _ X).
  set (s := sqrt (1 - al^2)) in *. set (x := acos al) in *. set (q := tq x) in *. set (N := tN x) in *. rewrite Sn, C in *.
  assert (s3 : 0 < s^3) by (apply pow_lt; lra). assert (s5 : 0 < s^5) by (apply pow_lt; lra). assert (a2 : 0 < al^2) by nra.
  assert (Eth : obl_theta al = al * q / s^3). { unfold obl_theta. fold s x. unfold q, tq. rewrite Sn, C. field. lra. }
  assert (EN : 3 * al * q - 2 * s^3 = - N). { unfold N, tN, q, tq. rewrite Sn, C. replace (s^3) with (s * s^2) by ring. rewrite S2. ring. }
  assert (Ef : obl_f al = - (al^2 * N / s^5)). { unfold obl_f. rewrite Eth, <- S2. replace N with (- (3 * al * q - 2 * s^3)) by lra. field. lra. }
  rewrite Ef, Eth. replace (- (al^2 * N / s^5) + al * q / s^3) with (al * (q * s^2 - al * N) / s^5) by (field; lra).
  apply le_div_iff; [lra|]. replace (4 / 15 * al * s^5) with (al * (4/15 * s^5)) by ring. apply Rmult_le_compat_l; lra.
Qed.
(** A stiff grain in a soft medium: its share of the shear residual is at most a multiple of the medium's modulus. *)
Lemma stiff_Q A k r f th e : 0 <= A -> 0 <= k -> 0 < r < 3/4 -> 0 < th <= 2/3 -> -(2/5) <= f < 0 -> 0 < e <= f + th ->
  A * pqQ A ((k - A) / 3) r f th <= (2 / - f + 4 / th + 8 / (3 * e)) / 5.
Proof.
  intros HA Hk Hr Ht Hf He.
  assert (N2 := pos_F2 A k r f th ltac:(lra) ltac:(lra) Hr Ht ltac:(lra) ltac:(lra)). assert (N3 := pos_F3 A r f th ltac:(lra) Hr Ht ltac:(lra) ltac:(lra)). assert (N4 := pos_F4 A r f th ltac:(lra) Hr Ht ltac:(lra) ltac:(lra)).
  rewrite pqQ_alt by lra.
  assert (X3 : A / pF3 A r f th <= / - f).
  { apply div_le_iff; [exact N3|]. unfold pF3. assert (0 <= r * (f + th)) by (apply Rmult_le_pos; lra).
    assert (A * - f <= A * (1 - f - 3/2 * th + r * (f + th))) by (apply Rmult_le_compat_l; lra).
    apply Rmult_le_reg_l with (- f); [lra|]. rewrite <- Rmult_assoc, Rinv_r by lra. lra. }
  assert (X4 : A / pF4 A r f th <= 2 / th).
  { apply div_le_iff; [exact N4|]. unfold pF4. assert (0 <= r * (th - f)) by (apply Rmult_le_pos; lra).
    assert (A * (2 * th) <= A * (f + 3 * th - r * (f - th))) by (apply Rmult_le_compat_l; lra).
    apply Rmult_le_reg_l with th; [lra|]. replace (th * (2 / th * (1 + A / 4 * (f + 3 * th - r * (f - th))))) with (2 + (A * (f + 3 * th - r * (f - th))) / 2) by (field; lra). lra. }
  assert (X2 : A * (4 * r + (k + 1) * (3 - 4 * r)) / pF2 A ((k - A) / 3) r f th <= 8 / e).
  { apply div_le_iff; [exact N2|].
    set (w := 3/2 * (f + th) + r * (4/3 - 3/2 * f - 5/2 * th)). set (v := f + th - r * (f - th + 2 * th ^ 2)).
    assert (EF : pF2 A ((k - A) / 3) r f th = 1 + A * w + k * (1 - 4/3 * r) + A * k * (3/2 - 2 * r) * v) by (unfold pF2, w, v; field).
    assert (W : 9/10 * e <= w).
    { replace w with ((1 - 4/3 * r) * (3/2 * (f + th)) + 4/3 * r * (1 + 3/8 * (f - th))) by (unfold w; field).
      assert ((1 - 4/3 * r) * (9/10 * e) <= (1 - 4/3 * r) * (3/2 * (f + th))) by (apply Rmult_le_compat_l; lra).
      assert (4/3 * r * (9/10 * e) <= 4/3 * r * (1 + 3/8 * (f - th))) by (apply Rmult_le_compat_l; lra). lra. }
    assert (V : e / 4 <= v).
    { replace v with ((1 - 4/3 * r) * (f + th) + 4/3 * r * ((f + th) / 4 + 3/2 * (th * (1 - th)))) by (unfold v; field).
      assert (0 <= th * (1 - th)) by (apply Rmult_le_pos; lra).
      assert ((1 - 4/3 * r) * (e / 4) <= (1 - 4/3 * r) * (f + th)) by (apply Rmult_le_compat_l; lra).
      assert (4/3 * r * (e / 4) <= 4/3 * r * ((f + th) / 4 + 3/2 * (th * (1 - th)))) by (apply Rmult_le_compat_l; lra). lra. }
    rewrite EF. assert (0 <= A * k * (3/2 - 2 * r)) by (repeat apply Rmult_le_pos; lra). assert (0 <= k * (1 - 4/3 * r)) by (apply Rmult_le_pos; lra).
    assert (Y1 : A * (9/10 * e) <= A * w) by (apply Rmult_le_compat_l; lra).
    assert (Y2 : A * k * (3/2 - 2 * r) * (e / 4) <= A * k * (3/2 - 2 * r) * v) by (apply Rmult_le_compat_l; lra).
    apply Rmult_le_reg_l with e; [lra|]. match goal with |- _ <= e * (8 / e * ?b) => replace (e * (8 / e * b)) with (8 * b) by (field; lra) end.
    set (z := A * k * (3/2 - 2 * r)) in *. replace (e * (A * (4 * r + (k + 1) * (3 - 4 * r)))) with (3 * (A * e) + 2 * e * z) by (unfold z; field).
    assert (0 <= A * e) by (apply Rmult_le_pos; lra). lra. }
  set (F2 := pF2 A ((k - A) / 3) r f th) in *. set (F3 := pF3 A r f th) in *. set (F4 := pF4 A r f th) in *.
  replace (A * ((2 / F3 + 2 / F4 + (4 * r + (k + 1) * (3 - 4 * r)) / (3 * F2)) / 5)) with ((2 * (A / F3) + 2 * (A / F4) + A * (4 * r + (k + 1) * (3 - 4 * r)) / F2 / 3) / 5) by (field; lra).
  replace (2 / - f) with (2 * / - f) by (unfold Rdiv; ring). replace (8 / (3 * e)) with (8 / e / 3) by (field; lra). replace (4 / th) with (2 * (2 / th)) by (field; lra). lra.
Qed.
(** A pore without rigidity: its two factors are bounded. *)
Lemma pore_PQ k r f th : -1 <= k -> 0 < r < 3/4 -> 0 < th <= 2/3 -> f < 0 -> 0 <= f + th ->
  pqP (-1) ((k + 1) / 3) r f th <= 2 / (- f * r) /\ pqQ (-1) ((k + 1) / 3) r f th <= (4 / th + 16/3 + 8 / (3 * - f)) / 5.
Proof.
  intros Hk Hr Ht Hf Hft. replace ((k + 1) / 3) with ((k - -1) / 3) by field.
  assert (N2 := pos_F2 (-1) k r f th ltac:(lra) Hk Hr Ht ltac:(lra) Hft). assert (L2 := F2_low (-1) k r f th ltac:(lra) Hk ltac:(lra) Ht ltac:(lra) Hft).
  destruct (F34_low (-1) r f th ltac:(lra) ltac:(lra) Ht ltac:(lra) Hft) as (L3 & L4).
  set (X := r / 2 + 3/8 * ((k + 1) * (1 - 4/3 * r))) in *. assert (0 <= (k + 1) * (1 - 4/3 * r)) by (apply Rmult_le_pos; lra). assert (HX : r / 2 <= X) by (unfold X; lra).
  assert (FX : 0 < - f * X) by (apply Rmult_lt_0_compat; lra). assert (FR : 0 < - f * r) by (apply Rmult_lt_0_compat; lra). split.
  - unfold pqP. assert (F1u : pF1 (-1) r f th <= 1).
    { unfold pF1. replace (3/2 * (f + th) - r * (3/2 * f + 5/2 * th - 4/3)) with ((1 - 4/3 * r) * (3/2 * (f + th)) + 4/3 * r * (1 + 3/8 * (f - th))) by field.
      assert (0 <= (1 - 4/3 * r) * (3/2 * (f + th))) by (apply Rmult_le_pos; lra). assert (0 <= 4/3 * r * (1 + 3/8 * (f - th))) by (apply Rmult_le_pos; lra). lra. }
    apply div_le_iff; [exact N2|]. apply Rle_trans with (1 := F1u). apply Rle_trans with (2 / (- f * r) * (- f * (r / 2))); [right; field; lra|].
    apply Rmult_le_compat_l; [left; apply Rdiv_lt_0_compat; lra|]. apply Rle_trans with (2 := L2). apply Rmult_le_compat_l; lra.
  - rewrite pqQ_alt by lra. replace (4 * r + (k + 1) * (3 - 4 * r)) with (8 * X) by (unfold X; field).
    assert (Y2 : 8 * X / (3 * pF2 (-1) ((k - -1) / 3) r f th) <= 8 / (3 * - f)).
    { apply div_le_iff; [lra|]. apply Rle_trans with (8 / (3 * - f) * (3 * (- f * X))); [right; field; lra|]. apply Rmult_le_compat_l; [left; apply Rdiv_lt_0_compat; lra|lra]. }
    assert (Y3 : 2 / pF3 (-1) r f th <= 4 / th). { apply div_le_iff; [lra|]. apply Rle_trans with (4 / th * (th / 2)); [right; field; lra|]. apply Rmult_le_compat_l; [left; apply Rdiv_lt_0_compat; lra|lra]. }
    assert (Y4 : 2 / pF4 (-1) r f th <= 16/3) by (apply div_le_iff; lra). lra.
Qed.
Lemma zG_range K G : 0 < K -> 0 < G -> 2/3 * G <= zG K G <= 3/2 * G.
Proof.
  intros HK HG. unfold zG. split.
  - replace (2/3 * G) with (G / 6 * 4) by field. apply Rmult_le_compat_l; [lra|]. apply le_div_iff; lra.
  - replace (3/2 * G) with (G / 6 * 9) by field. apply Rmult_le_compat_l; [lra|]. apply div_le_iff; lra.
Qed.
Lemma grain_Q Km Gm K G a : 0 < a < 1 -> 0 < K <= Km -> 0 < G <= Gm -> (Gm - G) * sphQ K G Km Gm a <= G * (1 / a^2 + 16 / (5 * a)).
Proof.
  intros Ha HK HG. rewrite (proj2 (sph_pq K G Km Gm a)). unfold shape_f, shape_th. destruct (Req_EM_T a 1) as [|_]; [lra|].
  destruct (obl_bounds a Ha) as (B1 & B2 & _). assert (B3 := obl_e a Ha). assert (a2 : 0 < a^2) by nra.
  set (A := Gm / G - 1). set (k := Km / K - 1). replace ((Km / K - Gm / G) / 3) with ((k - A) / 3) by (unfold k, A; field; lra).
  assert (HA : 0 <= A) by (unfold A; assert (1 <= Gm / G) by (apply le_div_iff; lra); lra). assert (Hk : 0 <= k) by (unfold k; assert (1 <= Km / K) by (apply le_div_iff; lra); lra).
  assert (Hr := obl_r K G ltac:(lra) ltac:(lra)). set (r := G / (K + 4/3*G)) in *.
  assert (S := stiff_Q A k r (obl_f a) (obl_theta a) (4/15 * a) HA Hk Hr ltac:(lra) ltac:(lra) ltac:(lra)).
  set (q := pqQ A ((k - A) / 3) r (obl_f a) (obl_theta a)) in *. replace (Gm - G) with (G * A) by (unfold A; field; lra). rewrite Rmult_assoc. apply Rmult_le_compat_l; [lra|].
  apply Rle_trans with (1 := S). assert (2 / - obl_f a <= 5 / a^2). { apply div_le_iff; [lra|]. apply Rle_trans with (5 / a^2 * (2/5 * a^2)); [right; field; lra|]. apply Rmult_le_compat_l; [left; apply Rdiv_lt_0_compat; lra|lra]. }
  assert (4 / obl_theta a <= 6 / a). { apply div_le_iff; [lra|]. apply Rle_trans with (6 / a * (2/3 * a)); [right; field; lra|]. apply Rmult_le_compat_l; [left; apply Rdiv_lt_0_compat; lra|lra]. }
  replace (8 / (3 * (4/15 * a))) with (10 / a) by (field; lra). replace (1 / a^2 + 16 / (5 * a)) with ((5 / a^2 + 6 / a + 10 / a) / 5) by (field; lra). lra.
Qed.
Lemma pores_bound phi Km Gm Ki a1 a2 Ks Gs : 0 < a1 < 1 -> 0 < a2 <= 1 -> 0 <= phi <= 1 -> 0 <= Ki <= Ks -> 0 < Ks <= Km -> 0 < Gs <= Gm ->
  (1 - phi) * (Gm - Gs) * sphQ Ks Gs Km Gm a1 + phi * (0 - Gs) * sphQ Ks Gs Ki 0 a2 = 0 -> 5/3 * phi <= (1 - phi) * (1 / a1^2 + 16 / (5 * a1)).
Proof.
  intros H1 H2 Hp HKi HK HG E. assert (S := grain_Q Km Gm Ks Gs a1 H1 HK HG).
  destruct (PQ_shape Ks Gs Ki 0 ltac:(lra) ltac:(lra) ltac:(lra) ltac:(lra)) with (al := a2) as (_ & _ & T & _); [|exact H2|].
  { replace ((Ki - Ks) * (0 - Gs)) with ((Ks - Ki) * Gs) by ring. apply Rmult_le_pos; lra. }
  destruct (zG_range Ks Gs ltac:(lra) ltac:(lra)) as (Z1 & Z2). assert (5/3 <= (Gs + zG Ks Gs) / (0 + zG Ks Gs)) by (apply le_div_iff; lra).
  set (q0 := sphQ Ks Gs Km Gm a1) in *. set (qp := sphQ Ks Gs Ki 0 a2) in *. set (C := 1 / a1^2 + 16 / (5 * a1)) in *.
  assert (U : (1 - phi) * ((Gm - Gs) * q0) <= (1 - phi) * (Gs * C)) by (apply Rmult_le_compat_l; lra).
  assert (V : phi * Gs * (5/3) <= phi * Gs * qp) by (apply Rmult_le_compat_l; [apply Rmult_le_pos; lra|lra]).
  apply Rmult_le_reg_l with Gs; [lra|]. lra.
Qed.
(** The other way round: a small amount of pores of any shape. *)
Definition poreC (Km Gm a : R) : R := 2 / (- obl_f a * ((Gm / 2) / (Km + 4/3 * (Gm / 2)))) + (4 / obl_theta a + 16/3 + 8 / (3 * - obl_f a)) / 5.
Lemma pores_root phi Km Gm Ki a1 a2 : 0 < a1 < 1 -> 0 < a2 < 1 -> 0 < Km -> 0 < Gm -> 0 <= Ki <= Km -> 0 <= phi -> phi * (1 + 2 * poreC Km Gm a2) <= 1 ->
  exists Ks Gs, Km / 2 <= Ks <= Km /\ Gm / 2 <= Gs <= Gm /\ (1 - phi) * (Km - Ks) * sphP Ks Gs Km Gm a1 + phi * (Ki - Ks) * sphP Ks Gs Ki 0 a2 = 0 /\
  (1 - phi) * (Gm - Gs) * sphQ Ks Gs Km Gm a1 + phi * (0 - Gs) * sphQ Ks Gs Ki 0 a2 = 0.
Proof.
  intros H1 H2 HK HG HKi Hphi Hc. destruct (obl_bounds a2 H2) as (B1 & B2 & B3). assert (s2 : 0 < a2^2) by nra.
  set (r0 := (Gm / 2) / (Km + 4/3 * (Gm / 2))) in *. assert (R0 : 0 < r0) by (unfold r0; apply Rdiv_lt_0_compat; lra).
  set (CP := 2 / (- obl_f a2 * r0)) in *. set (CQ := (4 / obl_theta a2 + 16/3 + 8 / (3 * - obl_f a2)) / 5) in *. replace (poreC Km Gm a2) with (CP + CQ) in Hc by reflexivity.
  assert (F0 : 0 < - obl_f a2 * r0) by (apply Rmult_lt_0_compat; lra).
  assert (PC : 0 < CP) by (unfold CP; apply Rdiv_lt_0_compat; lra).
  assert (QC : 0 < CQ). { unfold CQ. assert (0 < 4 / obl_theta a2) by (apply Rdiv_lt_0_compat; lra). assert (0 < 8 / (3 * - obl_f a2)) by (apply Rdiv_lt_0_compat; lra). lra. }
  assert (P1 : 0 <= phi * CP) by (apply Rmult_le_pos; lra). assert (P2 : 0 <= phi * CQ) by (apply Rmult_le_pos; lra).
  (* bounds on the box *)
  assert (Grain : forall K G, Km / 2 <= K <= Km -> Gm / 2 <= G <= Gm -> 1/2 <= sphP K G Km Gm a1 /\ 1/2 <= sphQ K G Km Gm a1).
  { intros K G IK IG. destruct (PQ_shape K G Km Gm ltac:(lra) ltac:(lra) ltac:(lra) ltac:(lra)) with (al := a1) as (T1 & _ & T2 & _); [apply Rmult_le_pos; lra|lra|].
    destruct (zG_range K G ltac:(lra) ltac:(lra)) as (Z1 & _). split; [apply Rle_trans with (2 := T1); unfold zK|apply Rle_trans with (2 := T2)]; apply le_div_iff; lra. }
  assert (Pore : forall K G, Km / 2 <= K <= Km -> Gm / 2 <= G <= Gm -> 0 < sphP K G Ki 0 a2 <= CP /\ 0 < sphQ K G Ki 0 a2 <= CQ).
  { intros K G IK IG. destruct (PQ_all NumPy K G Ki 0 ltac:(lra) ltac:(lra) ltac:(lra) ltac:(lra) a2 ltac:(lra)) as (_ & _ & T1 & T2).
    assert (U : sphP K G Ki 0 a2 <= CP /\ sphQ K G Ki 0 a2 <= CQ).
    { rewrite (proj1 (sph_pq K G Ki 0 a2)), (proj2 (sph_pq K G Ki 0 a2)). unfold shape_f, shape_th. destruct (Req_EM_T a2 1) as [|_]; [lra|].
      replace (0 / G - 1) with (-1) by (field; lra). set (k := Ki / K - 1). replace ((Ki / K - 0 / G) / 3) with ((k + 1) / 3) by (unfold k; field; lra).
      assert (0 <= Ki / K) by (apply le_div_iff; lra). assert (Hr := obl_r K G ltac:(lra) ltac:(lra)). set (r := G / (K + 4/3*G)) in *.
      destruct (pore_PQ k r (obl_f a2) (obl_theta a2) ltac:(unfold k; lra) Hr ltac:(lra) ltac:(lra) B3) as (V1 & V2). split; [|exact V2].
      apply Rle_trans with (1 := V1). assert (RR : r0 <= r). { unfold r0, r. apply div_le_iff; [lra|]. replace (G / (K + 4/3*G) * (Km + 4/3 * (Gm / 2))) with (G * (Km + 4/3 * (Gm / 2)) / (K + 4/3*G)) by (field; lra).
        apply le_div_iff; [lra|]. assert (0 <= (G - Gm / 2) * K) by (apply Rmult_le_pos; lra). assert (0 <= G * (Km - K)) by (apply Rmult_le_pos; lra). lra. }
      unfold CP, Rdiv. apply Rmult_le_compat_l; [lra|]. apply Rinv_le_contravar; [exact F0|]. apply Rmult_le_compat_l; lra. }
    lra. }
  set (k0 := Km / 2). set (g0 := Gm / 2). assert (Hk : k0 <= Km) by (unfold k0; lra). assert (Hg : g0 <= Gm) by (unfold g0; lra).
  assert (K0 : 0 < k0) by (unfold k0; lra). assert (G0 : 0 < g0) by (unfold g0; lra).
  assert (L1 : Lip k0 Km g0 Gm (fun K G => sphP K G Km Gm a1)) by (apply Lip_sphP; lra). assert (L2 : Lip k0 Km g0 Gm (fun K G => sphQ K G Km Gm a1)) by (apply Lip_sphQ; lra).
  assert (L3 : Lip k0 Km g0 Gm (fun K G => sphP K G Ki 0 a2)) by (apply Lip_sphP; lra). assert (L4 : Lip k0 Km g0 Gm (fun K G => sphQ K G Ki 0 a2)) by (apply Lip_sphQ; lra).
  destruct (miranda k0 Km g0 Gm (fun K G => (1 - phi) * (Km - K) * sphP K G Km Gm a1 + phi * (Ki - K) * sphP K G Ki 0 a2) (fun K G => (1 - phi) * (Gm - G) * sphQ K G Km Gm a1 + phi * (0 - G) * sphQ K G Ki 0 a2)) as (Ks & Gs & IK & IG & E1 & E2).
  - unfold k0; lra.
  - unfold g0; lra.
  - lip.
  - lip.
  - intros G IG. destruct (Grain k0 G ltac:(unfold k0; lra) IG) as (T1 & _). destruct (Pore k0 G ltac:(unfold k0; lra) IG) as (T2 & _). unfold k0 in *.
    set (p := sphP (Km / 2) G Km Gm a1) in *. set (q := sphP (Km / 2) G Ki 0 a2) in *.
    assert ((1 - phi) * (Km - Km / 2) * (1/2) <= (1 - phi) * (Km - Km / 2) * p) by (apply Rmult_le_compat_l; [apply Rmult_le_pos; lra|lra]).
    assert (phi * q <= phi * CP) by (apply Rmult_le_compat_l; lra). assert (0 <= phi * q) by (apply Rmult_le_pos; lra). assert (0 <= phi * q * Ki) by (apply Rmult_le_pos; lra).
    assert (Km / 2 * (phi * q) <= Km / 2 * (phi * CP)) by (apply Rmult_le_compat_l; lra). assert (0 <= Km / 2 * ((1 - phi) / 2 - phi * CP)) by (apply Rmult_le_pos; lra). lra.
  - intros G IG. destruct (Pore Km G ltac:(unfold k0 in *; lra) IG) as (T2 & _). set (q := sphP Km G Ki 0 a2) in *.
    assert (0 <= phi * (Km - Ki) * q) by (apply Rmult_le_pos; [apply Rmult_le_pos; lra|lra]). lra.
  - intros K IK. destruct (Grain K g0 IK ltac:(unfold g0; lra)) as (_ & T1). destruct (Pore K g0 IK ltac:(unfold g0; lra)) as (_ & T2). unfold g0 in *.
    set (p := sphQ K (Gm / 2) Km Gm a1) in *. set (q := sphQ K (Gm / 2) Ki 0 a2) in *.
    assert ((1 - phi) * (Gm - Gm / 2) * (1/2) <= (1 - phi) * (Gm - Gm / 2) * p) by (apply Rmult_le_compat_l; [apply Rmult_le_pos; lra|lra]).
    assert (phi * q <= phi * CQ) by (apply Rmult_le_compat_l; lra).
    assert (Gm / 2 * (phi * q) <= Gm / 2 * (phi * CQ)) by (apply Rmult_le_compat_l; lra). assert (0 <= Gm / 2 * ((1 - phi) / 2 - phi * CQ)) by (apply Rmult_le_pos; lra). lra.
  - intros K IK. destruct (Pore K Gm IK ltac:(unfold g0 in *; lra)) as (_ & T2). set (q := sphQ K Gm Ki 0 a2) in *.
    assert (0 <= phi * Gm * q) by (apply Rmult_le_pos; [apply Rmult_le_pos; lra|lra]). lra.
  - exists Ks, Gs. auto.
Qed.
Lemma poreC_pos Km Gm a : 0 < Km -> 0 < Gm -> 0 < a < 1 -> 0 < poreC Km Gm a.
Proof.
  intros HK HG H. destruct (obl_bounds a H) as (B1 & B2 & B3). assert (s2 : 0 < a^2) by nra. unfold poreC.
  set (r0 := (Gm / 2) / (Km + 4/3 * (Gm / 2))) in *. assert (R0 : 0 < r0) by (unfold r0; apply Rdiv_lt_0_compat; lra).
  assert (F0 : 0 < - obl_f a * r0) by (apply Rmult_lt_0_compat; lra). assert (0 < 2 / (- obl_f a * r0)) by (apply Rdiv_lt_0_compat; lra).
  assert (0 < 4 / obl_theta a) by (apply Rdiv_lt_0_compat; lra). assert (0 < 8 / (3 * - obl_f a)) by (apply Rdiv_lt_0_compat; lra). lra.
Qed.
Lemma below2 a b x : below_some [a; b] x -> b <= a -> x <= a.
Proof. unfold below_some. rewrite List.Exists_exists. intros (y & [<-|[<-|[]]] & H) Hab; lra. Qed.
Lemma between2 a b x : above_some [a; b] x -> below_some [a; b] x -> b <= a -> b <= x <= a.
Proof. intros A B H. split; [|apply below2 with (1 := B); exact H]. revert A. unfold above_some. rewrite List.Exists_exists. intros (y & [<-|[<-|[]]] & Z); lra. Qed.
