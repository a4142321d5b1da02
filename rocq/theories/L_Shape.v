(** * The shape of an inclusion: of all oblate spheroids a sphere acts least and a thin disc most. *)
From Coquelicot Require Import Coquelicot.
From Verif Require Import Fl M_Utils M_EM Spec Spec3 Spec7 RealLemmas L_Lists L_EM1 L_EM5 L_EM8 L_Cross.
Open Scope R_scope.

Section Ext.
Variables (A k r f th : R).
Hypotheses (HA : -1 <= A) (Hk : -1 <= k) (HAk : 0 <= A * k) (Hr : 0 < r < 3/4) (Ht : 0 < th <= 2/3) (Hf : f <= 0) (Hft : 0 <= f + th).
Let B := (k - A) / 3.
Let h := 1 + k * (1 - 4/3 * r).
Let D := 1 + 4/3 * r * A.
Let w := 3/2 * (f + th) - r * (3/2 * f + 5/2 * th - 4/3).
Let s := (th - 2/3)^2.
Let e := (3 - 4 * r) * r.

Lemma F2_split : pF2 A B r f th = h * pF1 A r f th - e * (A * k) * s.
Proof. unfold pF2, pF1, B, h, e, s. field. Qed.
Lemma h_pos : 0 < h.
Proof. unfold h. assert (0 <= (k + 1) * (1 - 4/3 * r)) by (apply Rmult_le_pos; lra). lra. Qed.
Lemma e_pos : 0 < e.
Proof. unfold e. apply Rmult_lt_0_compat; lra. Qed.
Lemma w_bounds : r * (4/3 - th) <= w <= 4/3 * r + (3/2 - 5/2 * r) * th.
Proof. unfold w. assert (0 <= (f + th) * (1 - r)) by (apply Rmult_le_pos; lra). assert (f * (1 - r) <= 0) by nra. lra. Qed.
Lemma s_le : s * D <= 4/9 * (1 + A * w).
Proof.
  destruct w_bounds as (W0 & W1).
  assert (X1 : s * (4/3 * r) <= 4/9 * w).
  { apply Rle_trans with (4/9 * (r * (4/3 - th))); [|lra]. unfold s. assert (0 <= r * (th * (1 - th))) by (repeat apply Rmult_le_pos; lra). lra. }
  assert (X2 : s * (1 - 4/3 * r) <= 4/9 * (1 - w)).
  { apply Rle_trans with (4/9 * (1 - (4/3 * r + (3/2 - 5/2 * r) * th))); [|lra]. unfold s.
    assert (0 <= th * ((2/3 - th) * (1 - 4/3 * r) + 2/9 * r)) by (apply Rmult_le_pos; [lra|]; assert (0 <= (2/3 - th) * (1 - 4/3 * r)) by (apply Rmult_le_pos; lra); lra). lra. }
  unfold D. assert (0 <= (A + 1) * (4/9 * w - s * (4/3 * r))) by (apply Rmult_le_pos; lra). lra.
Qed.
Lemma F1_w : pF1 A r f th = 1 + A * w.
Proof. reflexivity. Qed.

Lemma P_sphere : 1 / h <= pqP A B r f th.
Proof.
  assert (P1 := pos_F1 A r f th HA Hr Ht Hf Hft). assert (P2 := pos_F2 A k r f th HA Hk Hr Ht Hf Hft). fold B in P2. assert (H := h_pos).
  unfold pqP. apply div_le_iff; [exact H|]. replace (pF1 A r f th / pF2 A B r f th * h) with (pF1 A r f th * h / pF2 A B r f th) by (field; lra).
  apply le_div_iff; [exact P2|]. rewrite F2_split. assert (0 <= e * (A * k) * s) by (apply Rmult_le_pos; [apply Rmult_le_pos; [apply Rlt_le, e_pos|lra]|apply pow2_ge_0]). lra.
Qed.
Lemma P_disc : pqP A B r f th * (h * D - e * (A * k) * (4/9)) <= D.
Proof.
  assert (P1 := pos_F1 A r f th HA Hr Ht Hf Hft). assert (P2 := pos_F2 A k r f th HA Hk Hr Ht Hf Hft). fold B in P2.
  unfold pqP. replace (pF1 A r f th / pF2 A B r f th * (h * D - e * (A * k) * (4/9))) with (pF1 A r f th * (h * D - e * (A * k) * (4/9)) / pF2 A B r f th) by (field; lra).
  apply div_le_iff; [exact P2|]. rewrite F2_split. assert (S := s_le). rewrite <- F1_w in S.
  assert (0 <= e * (A * k)) by (apply Rmult_le_pos; [apply Rlt_le, e_pos|lra]).
  assert (e * (A * k) * (s * D) <= e * (A * k) * (4/9 * pF1 A r f th)) by (apply Rmult_le_compat_l; lra). lra.
Qed.

(** Q is the mean of five reciprocals 1/(1 + A a); the five a's add up to the same for every shape, up to the coupling with the bulk strain. *)
Let a3 := 1 - f - 3/2 * th + r * (f + th).
Let a4 := (f + 3 * th - r * (f - th)) / 4.
Let c := e * k / h.
Let u := w - c * s.
Let ud := 4/3 * r - 4/9 * c.
Lemma a3_bounds : 0 <= a3 <= 1.
Proof.
  unfold a3. assert (0 <= (f + th) * (1 - r)) by (apply Rmult_le_pos; lra). assert (f * (1 - r) <= 0) by nra. assert (0 <= r * th) by (apply Rmult_le_pos; lra). 
  assert (r * th <= 3/4 * th) by (apply Rmult_le_compat_r; lra). lra.
Qed.
Lemma a4_bounds : 0 <= a4 <= 1.
Proof.
  unfold a4. assert (0 <= (f + th) * (1 - r)) by (apply Rmult_le_pos; lra). assert (f * (1 - r) <= 0) by nra. assert (0 <= r * th) by (apply Rmult_le_pos; lra). 
  assert (r * th <= 3/4 * th) by (apply Rmult_le_compat_r; lra). lra.
Qed.
Lemma a_sum : 2 * a3 + 2 * a4 + w = 2 + 4/3 * r.
Proof. unfold a3, a4, w. field. Qed.
Lemma c_bounds : - (3/4) * (3 - 4 * r) <= c <= 3 * r.
Proof.
  assert (H := h_pos). unfold c. split.
  - apply le_div_iff; [exact H|]. unfold e, h. assert (0 <= (3 - 4 * r) * (1 + k)) by (apply Rmult_le_pos; lra). lra.
  - apply div_le_iff; [exact H|]. unfold e, h. lra.
Qed.
Lemma c_sign : 0 <= A * c.
Proof. assert (H := h_pos). assert (E := e_pos). unfold c. replace (A * (e * k / h)) with (e * (A * k) / h) by (field; lra). apply le_div_iff; [exact H|]. rewrite Rmult_0_l. apply Rmult_le_pos; lra. Qed.
Lemma ud_bounds : 0 <= ud <= 1.
Proof. assert (C := c_bounds). unfold ud. lra. Qed.
Lemma s_bounds : 0 <= s <= 4/9.
Proof. unfold s. split; [apply pow2_ge_0|]. nra. Qed.
Lemma u_bounds : 0 <= u <= 1.
Proof.
  destruct w_bounds as (W0 & W1). destruct c_bounds as (C0 & C1). destruct s_bounds as (S0 & S1). unfold u. split.
  - assert (c * s <= 3 * r * s) by (apply Rmult_le_compat_r; lra). assert (0 <= r * (th * (1 - th))) by (repeat apply Rmult_le_pos; lra). unfold s in *. lra.
  - assert (- (3/4) * (3 - 4 * r) * s <= c * s) by (apply Rmult_le_compat_r; lra).
    assert (0 <= th * ((2/3 - th) * (1 - 4/3 * r) + 2/9 * r)) by (apply Rmult_le_pos; [lra|]; assert (0 <= (2/3 - th) * (1 - 4/3 * r)) by (apply Rmult_le_pos; lra); lra).
    unfold s in *. lra.
Qed.
Lemma T22 : (4 * r + (k + 1) * (3 - 4 * r)) / (3 * pF2 A B r f th) = 1 / (1 + A * u).
Proof.
  assert (H := h_pos). assert (P2 := pos_F2 A k r f th HA Hk Hr Ht Hf Hft). fold B in P2.
  assert (E : pF2 A B r f th = h * (1 + A * u)). { rewrite F2_split, F1_w. unfold u, c. field. lra. }
  rewrite E in *. assert (0 < 1 + A * u). { apply (Rmult_lt_reg_l h); [exact H|]. lra. }
  replace (4 * r + (k + 1) * (3 - 4 * r)) with (3 * h) by (unfold h; field). field. lra.
Qed.
Lemma Q_five : pqQ A B r f th = (2 / (1 + A * a3) + 2 / (1 + A * a4) + 1 / (1 + A * u)) / 5.
Proof.
  unfold B. rewrite pqQ_alt; try (apply Rgt_not_eq; first [apply pos_F2|apply pos_F3|apply pos_F4]; auto). fold B. rewrite T22.
  replace (pF3 A r f th) with (1 + A * a3) by (unfold pF3, a3; reflexivity). replace (pF4 A r f th) with (1 + A * a4) by (unfold pF4, a4; field). reflexivity.
Qed.
Lemma five_pos : 0 < 1 + A * a3 /\ 0 < 1 + A * a4 /\ 0 < 1 + A * u.
Proof.
  assert (H := h_pos). assert (P2 := pos_F2 A k r f th HA Hk Hr Ht Hf Hft). assert (P3 := pos_F3 A r f th HA Hr Ht Hf Hft). assert (P4 := pos_F4 A r f th HA Hr Ht Hf Hft). fold B in P2.
  assert (E : pF2 A B r f th = h * (1 + A * u)). { rewrite F2_split, F1_w. unfold u, c. field. lra. }
  split; [exact P3|]. split. { replace (1 + A * a4) with (pF4 A r f th) by (unfold pF4, a4; field). exact P4. }
  apply (Rmult_lt_reg_l h); [exact H|]. lra.
Qed.
(** Arithmetic mean over harmonic mean. *)
Lemma tangent x g : 0 < x -> 0 < g -> 2 / g - x / g^2 <= 1 / x.
Proof.
  intros Hx Hg. apply le_div_iff; [exact Hx|]. replace ((2 / g - x / g^2) * x) with (1 - (x - g)^2 / g^2) by (field; lra).
  assert (0 <= (x - g)^2 / g^2) by (apply le_div_iff; [apply pow_lt; lra|]; rewrite Rmult_0_l; apply pow2_ge_0). lra.
Qed.
Let g := 1 + A * (2/5 + 4/15 * r).
Lemma g_pos : 0 < g.
Proof. unfold g. assert (0 <= (A + 1) * (2/5 + 4/15 * r)) by (apply Rmult_le_pos; lra). lra. Qed.
Lemma Q_sphere : 1 / g <= pqQ A B r f th.
Proof.
  rewrite Q_five. destruct five_pos as (X3 & X4 & Xu). assert (G := g_pos).
  assert (Y3 := tangent _ _ X3 G). assert (Y4 := tangent _ _ X4 G). assert (Yu := tangent _ _ Xu G).
  assert (S : 2 * (1 + A * a3) + 2 * (1 + A * a4) + (1 + A * u) <= 5 * g).
  { replace (2 * (1 + A * a3) + 2 * (1 + A * a4) + (1 + A * u)) with (5 + A * (2 * a3 + 2 * a4 + w) - A * c * s) by (unfold u; ring). rewrite a_sum. unfold g.
    assert (0 <= A * c * s) by (apply Rmult_le_pos; [apply c_sign|apply s_bounds]). lra. }
  assert (S' : (2 * (1 + A * a3) + 2 * (1 + A * a4) + (1 + A * u)) / g^2 <= 5 / g).
  { apply div_le_iff; [apply pow_lt; exact G|]. replace (5 / g * g^2) with (5 * g) by (field; lra). exact S. }
  assert (E : (2 * (1 + A * a3) + 2 * (1 + A * a4) + (1 + A * u)) / g^2 = 2 * ((1 + A * a3) / g^2) + 2 * ((1 + A * a4) / g^2) + (1 + A * u) / g^2) by (field; lra).
  assert (2 / (1 + A * a3) = 2 * (1 / (1 + A * a3))) by (field; lra). assert (2 / (1 + A * a4) = 2 * (1 / (1 + A * a4))) by (field; lra).
  assert (2 / g = 2 * (1 / g)) by (field; lra). assert (5 / g = 5 * (1 / g)) by (field; lra). lra.
Qed.
(** The five a's are spread less than 1, 1, 0, 0, ud. *)
Hypothesis HA' : -1 < A.
Let q := 1 / (1 + A * ud).
Lemma q_pos : 0 < 1 + A * ud /\ 0 < q.
Proof.
  destruct ud_bounds. assert (0 < 1 + A * ud). { assert (0 <= (A + 1) * ud) by (apply Rmult_le_pos; lra). destruct (Req_dec ud 1) as [E|N]; [rewrite E; lra|]. lra. }
  split; [lra|]. unfold q. apply Rdiv_lt_0_compat; lra.
Qed.
Lemma chord_lo x : 0 <= x <= ud -> 1 / (1 + A * x) <= 1 - A * q * x.
Proof.
  intros Hx. destruct q_pos as (Q0 & Q1). destruct ud_bounds. assert (0 < 1 + A * x). { assert (0 <= (A + 1) * x) by (apply Rmult_le_pos; lra). destruct (Req_dec x 1) as [E|N]; [rewrite E; lra|]. lra. }
  apply div_le_iff; [lra|]. assert (E : (1 - A * q * x) * (1 + A * x) = 1 + A^2 * q * x * (ud - x)) by (unfold q; field; lra).
  rewrite E. assert (0 <= A^2 * q * x * (ud - x)) by (apply Rmult_le_pos; [apply Rmult_le_pos; [apply Rmult_le_pos; [apply pow2_ge_0|]|]|]; lra). lra.
Qed.
Lemma chord_hi x : ud <= x <= 1 -> 1 / (1 + A * x) <= 1 - A * q * x + A^2 * q / (1 + A) * (x - ud).
Proof.
  intros Hx. destruct q_pos as (Q0 & Q1). destruct ud_bounds. assert (0 < 1 + A * x). { assert (0 <= (A + 1) * x) by (apply Rmult_le_pos; lra). destruct (Req_dec x 1) as [E|N]; [rewrite E; lra|]. lra. }
  apply div_le_iff; [lra|]. assert (E : (1 - A * q * x + A^2 * q / (1 + A) * (x - ud)) * (1 + A * x) = 1 + A^2 * q / (1 + A) * (x - ud) * (1 - x)) by (unfold q; field; lra).
  rewrite E. assert (0 <= A^2 * q / (1 + A) * (x - ud) * (1 - x)); [|lra].
  apply Rmult_le_pos; [apply Rmult_le_pos; [|lra]|lra]. apply le_div_iff; [lra|]. rewrite Rmult_0_l. apply Rmult_le_pos; [apply pow2_ge_0|lra].
Qed.
Let pp (x : R) : R := Rmax 0 (x - ud).
Lemma chord x : 0 <= x <= 1 -> 1 / (1 + A * x) <= 1 - A * q * x + A^2 * q / (1 + A) * pp x.
Proof.
  intros Hx. unfold pp, Rmax. destruct (Rle_dec 0 (x - ud)).
  - apply chord_hi. lra.
  - assert (H := chord_lo x ltac:(lra)). lra.
Qed.
Lemma Q_disc : pqQ A B r f th <= (2 / (1 + A) + 2 + q) / 5.
Proof.
  rewrite Q_five. destruct five_pos as (X3 & X4 & Xu). destruct q_pos as (Q0 & Q1).
  assert (B3 := a3_bounds). assert (B4 := a4_bounds). assert (Bu := u_bounds). assert (Bd := ud_bounds).
  assert (C3 := chord a3 B3). assert (C4 := chord a4 B4). assert (Cu := chord u Bu).
  set (dl := c * (4/9 - s)).
  assert (Sm : 2 * a3 + 2 * a4 + u = 2 + ud + dl). { replace (2 * a3 + 2 * a4 + u) with (2 * a3 + 2 * a4 + w - c * s) by (unfold u; ring). rewrite a_sum. unfold ud, dl. ring. }
  assert (Ad : 0 <= A * dl). { unfold dl. replace (A * (c * (4/9 - s))) with (A * c * (4/9 - s)) by ring. apply Rmult_le_pos; [apply c_sign|]. destruct s_bounds. lra. }
  assert (E3 : 2 / (1 + A * a3) = 2 * (1 / (1 + A * a3))) by (field; lra). assert (E4 : 2 / (1 + A * a4) = 2 * (1 / (1 + A * a4))) by (field; lra).
  assert (EA : 2 / (1 + A) = 2 * (1 - A * q + A^2 * q / (1 + A) * (1 - ud))) by (unfold q; field; lra).
  assert (Eq : q = 1 - A * q * ud) by (unfold q; field; lra).
  set (S := 2 * pp a3 + 2 * pp a4 + pp u).
  assert (K : 0 <= A^2 * q / (1 + A)). { apply le_div_iff; [lra|]. rewrite Rmult_0_l. apply Rmult_le_pos; [apply pow2_ge_0|lra]. }
  assert (Q5 : 2 / (1 + A * a3) + 2 / (1 + A * a4) + 1 / (1 + A * u) <= 5 - A * q * (2 + ud + dl) + A^2 * q / (1 + A) * S).
  { rewrite <- Sm. unfold S. lra. }
  assert (T : (2 / (1 + A) + 2 + q) = 5 - A * q * (2 + ud) + A^2 * q / (1 + A) * (2 * (1 - ud))) by lra.
  assert (L : - A * q * dl + A^2 * q / (1 + A) * S <= A^2 * q / (1 + A) * (2 * (1 - ud))); [|lra].
  assert (SB : S <= 2 * (1 - ud) + Rmax 0 dl).
  { unfold S, pp, Rmax. destruct (Rle_dec 0 (a3 - ud)), (Rle_dec 0 (a4 - ud)), (Rle_dec 0 (u - ud)), (Rle_dec 0 dl); lra. }
  assert (A^2 * q / (1 + A) * S <= A^2 * q / (1 + A) * (2 * (1 - ud) + Rmax 0 dl)) by (apply Rmult_le_compat_l; auto).
  assert (A^2 * q / (1 + A) * Rmax 0 dl <= A * q * dl); [|lra].
  assert (qd : 0 <= q * (A * dl)) by (apply Rmult_le_pos; lra).
  unfold Rmax. destruct (Rle_dec 0 dl).
  - apply Rle_trans with (q * (A * dl) * (A / (1 + A))); [right; field; lra|].
    assert (A / (1 + A) <= 1) by (apply div_le_iff; lra). assert (q * (A * dl) * (A / (1 + A)) <= q * (A * dl) * 1) by (apply Rmult_le_compat_l; lra). lra.
  - rewrite Rmult_0_r. lra.
Qed.
End Ext.

(** ** In terms of the moduli *)
Section Moduli.
Variables (Km Gm Ki Gi : R).
Hypotheses (HK : 0 < Km) (HG : 0 < Gm) (HKi : 0 <= Ki) (HGi : 0 <= Gi) (HO : 0 <= (Ki - Km) * (Gi - Gm)).
Let A := Gi / Gm - 1.
Let B := (Ki / Km - Gi / Gm) / 3.
Let r := Gm / (Km + 4/3*Gm).
Let k := Ki / Km - 1.
Lemma ord_Ak : 0 <= A * k.
Proof. unfold A, k. replace ((Gi / Gm - 1) * (Ki / Km - 1)) with ((Ki - Km) * (Gi - Gm) / (Km * Gm)) by (field; lra). apply le_div_iff; [nra|]. lra. Qed.
Lemma shape_bounds th f : 0 < th <= 2/3 -> f <= 0 -> 0 <= f + th ->
  (Km + zK Gm) / (Ki + zK Gm) <= pqP A B r f th /\ pqP A B r f th * (Ki + zK Gi) <= Km + zK Gi /\
  (Gm + zG Km Gm) / (Gi + zG Km Gm) <= pqQ A B r f th /\ (0 < Gi -> pqQ A B r f th <= (Gm + zG Ki Gi) / (Gi + zG Ki Gi)).
Proof.
  intros H1 H2 H3. assert (XA := obl_A Gm Gi HG HGi). fold A in XA. assert (Xr := obl_r Km Gm HK HG). fold r in Xr. assert (XAk := ord_Ak).
  assert (Xk : -1 <= k) by (unfold k; assert (0 <= Ki / Km) by (apply le_div_iff; lra); lra).
  assert (EB : B = (k - A) / 3) by (unfold B, k, A; field; lra).
  assert (Pm := zG_pos Km Gm HK HG). assert (Km * Gm > 0) by nra. assert (0 <= Km * Ki) by nra. assert (0 <= Km * Gi) by nra. assert (0 <= Gm * Gi) by nra. assert (0 < Km * Km) by nra. assert (0 < Gm * Gm) by nra.
  rewrite EB. split; [|split; [|split]].
  - apply Rle_trans with (2 := P_sphere A k r f th XA Xk XAk Xr H1 H2 H3). right. unfold k, r, zK. field. repeat split; try lra; nra.
  - assert (X := P_disc A k r f th XA Xk XAk Xr H1 H2 H3). set (P := pqP A ((k - A) / 3) r f th) in *.
    assert (E1 : 1 + 4/3 * r * A = (Km + zK Gi) / (Km + zK Gm)) by (unfold r, A, zK; field; lra).
    assert (E2 : (1 + k * (1 - 4/3 * r)) * (1 + 4/3 * r * A) - (3 - 4 * r) * r * (A * k) * (4/9) = (Ki + zK Gi) / (Km + zK Gm)) by (unfold k, r, A, zK; field; lra).
    rewrite E2, E1 in X. assert (0 < Km + zK Gm) by (unfold zK; lra).
    assert (Y : P * ((Ki + zK Gi) / (Km + zK Gm)) * (Km + zK Gm) <= (Km + zK Gi) / (Km + zK Gm) * (Km + zK Gm)) by (apply Rmult_le_compat_r; lra).
    replace (P * ((Ki + zK Gi) / (Km + zK Gm)) * (Km + zK Gm)) with (P * (Ki + zK Gi)) in Y by (field; lra).
    replace ((Km + zK Gi) / (Km + zK Gm) * (Km + zK Gm)) with (Km + zK Gi) in Y by (field; lra). exact Y.
  - apply Rle_trans with (2 := Q_sphere A k r f th XA Xk XAk Xr H1 H2 H3). right. unfold A, r, zG. field. repeat split; lra.
  - intros PG. assert (0 < Gi / Gm) by (apply Rdiv_lt_0_compat; lra).
    apply Rle_trans with (1 := Q_disc A k r f th XA Xk XAk Xr H1 H2 H3 ltac:(unfold A; lra)). right.
    assert (0 <= Ki * Gi) by nra. assert (0 < Gi * Gi) by nra. assert (0 <= Km * Ki) by nra. assert (0 < Km * Gi) by nra. assert (0 < Gm * Gi) by nra. assert (0 <= Gm * Ki) by nra.
    unfold A, r, k, zG. field. repeat split; try lra; nra.
Qed.
Lemma PQ_shape al : 0 < al <= 1 ->
  (Km + zK Gm) / (Ki + zK Gm) <= sphP Km Gm Ki Gi al /\ sphP Km Gm Ki Gi al * (Ki + zK Gi) <= Km + zK Gi /\
  (Gm + zG Km Gm) / (Gi + zG Km Gm) <= sphQ Km Gm Ki Gi al /\ (0 < Gi -> sphQ Km Gm Ki Gi al <= (Gm + zG Ki Gi) / (Gi + zG Ki Gi)).
Proof.
  intros H. unfold sphP, sphQ. destruct (Req_EM_T al 1) as [->|N].
  - apply shape_bounds; lra.
  - destruct (obl_bounds al ltac:(lra)) as (B1 & B2 & B3). assert (0 < al^2) by nra. apply shape_bounds; lra.
Qed.
End Moduli.

(** ** The effect of an inclusion on the effective modulus lies between two spheres' *)
Definition pol (X Xi z : R) : R := (Xi - X) * ((X + z) / (Xi + z)).
Lemma pol_mono X Xi z z' : 0 < Xi + z -> z <= z' -> pol X Xi z <= pol X Xi z'.
Proof.
  intros H Hz. unfold pol. replace ((Xi - X) * ((X + z) / (Xi + z))) with ((Xi - X) - (Xi - X)^2 * (1 / (Xi + z))) by (field; lra).
  replace ((Xi - X) * ((X + z') / (Xi + z'))) with ((Xi - X) - (Xi - X)^2 * (1 / (Xi + z'))) by (field; lra).
  assert (1 / (Xi + z') <= 1 / (Xi + z)) by (unfold Rdiv; rewrite !Rmult_1_l; apply Rinv_le_contravar; lra).
  assert ((Xi - X)^2 * (1 / (Xi + z')) <= (Xi - X)^2 * (1 / (Xi + z))) by (apply Rmult_le_compat_l; [apply pow2_ge_0|auto]). lra.
Qed.
(** With references no softer (no stiffer) than matrix and inclusion. *)
Lemma pol_upper X Xi p z zi z' : 0 < X + z -> 0 < Xi + z -> 0 < X + zi -> (X + z) / (Xi + z) <= p -> p * (Xi + zi) <= X + zi -> z <= z' -> zi <= z' -> 0 <= Xi + zi -> (Xi - X) * p <= pol X Xi z'.
Proof.
  intros H1 H2 H3 L U Hz Hzi H4. destruct (Rle_or_lt (Xi - X) 0) as [S|S].
  - apply Rle_trans with (pol X Xi z); [|apply pol_mono; auto]. unfold pol. apply Rmult_le_compat_neg_l; auto.
  - assert (0 < Xi + zi) by lra. apply Rle_trans with (pol X Xi zi); [|apply pol_mono; auto]. unfold pol. apply Rmult_le_compat_l; [lra|].
    apply le_div_iff; auto.
Qed.
Lemma pol_lower X Xi p z zi z' : 0 < X + z -> 0 < Xi + z -> 0 < X + zi -> (X + z) / (Xi + z) <= p -> p * (Xi + zi) <= X + zi -> z' <= z -> z' <= zi -> 0 < Xi + z' -> pol X Xi z' <= (Xi - X) * p.
Proof.
  intros H1 H2 H3 L U Hz Hzi H4. destruct (Rle_or_lt (Xi - X) 0) as [S|S].
  - assert (0 < Xi + zi) by lra. apply Rle_trans with (pol X Xi zi); [apply pol_mono; auto|]. unfold pol. apply Rmult_le_compat_neg_l; [lra|].
    apply le_div_iff; auto.
  - apply Rle_trans with (pol X Xi z); [apply pol_mono; auto|]. unfold pol. apply Rmult_le_compat_l; lra.
Qed.
Section Effect.
Variables (K G Ki Gi al : R).
Hypotheses (HK : 0 < K) (HG : 0 < G) (HKi : 0 <= Ki) (HGi : 0 <= Gi) (HO : 0 <= (Ki - K) * (Gi - G)) (Hal : 0 < al <= 1).
Lemma zG_nonneg Kx Gx : 0 <= Kx -> 0 <= Gx -> 0 <= zG Kx Gx.
Proof.
  intros. unfold zG. destruct (Req_dec (Kx + 2 * Gx) 0) as [E|N].
  - assert (Gx = 0) by lra. subst Gx. unfold Rdiv. rewrite !Rmult_0_l. lra.
  - apply Rmult_le_pos; [lra|]. apply le_div_iff; lra.
Qed.
Lemma eff_K_upper z' : zK G <= z' -> zK Gi <= z' -> (Ki - K) * sphP K G Ki Gi al <= pol K Ki z'.
Proof.
  intros H1 H2. destruct (PQ_shape K G Ki Gi HK HG HKi HGi HO al Hal) as (P1 & P2 & _ & _). assert (0 < zK G) by (unfold zK; lra). assert (0 <= zK Gi) by (unfold zK; lra).
  apply pol_upper with (z := zK G) (zi := zK Gi); auto; lra.
Qed.
Lemma eff_K_lower z' : z' <= zK G -> z' <= zK Gi -> 0 < Ki + z' -> pol K Ki z' <= (Ki - K) * sphP K G Ki Gi al.
Proof.
  intros H1 H2 H3. destruct (PQ_shape K G Ki Gi HK HG HKi HGi HO al Hal) as (P1 & P2 & _ & _). assert (0 < zK G) by (unfold zK; lra). assert (0 <= zK Gi) by (unfold zK; lra).
  apply pol_lower with (z := zK G) (zi := zK Gi); auto; lra.
Qed.
Lemma eff_G_upper z' : zG K G <= z' -> zG Ki Gi <= z' -> (Gi - G) * sphQ K G Ki Gi al <= pol G Gi z'.
Proof.
  intros H1 H2. destruct (PQ_shape K G Ki Gi HK HG HKi HGi HO al Hal) as (_ & _ & P1 & P2). assert (0 < zG K G) by (apply zG_pos; lra). assert (0 <= zG Ki Gi) by (apply zG_nonneg; lra).
  destruct (Req_dec Gi 0) as [E|N].
  - apply Rle_trans with (pol G Gi (zG K G)); [|apply pol_mono; lra]. unfold pol. apply Rmult_le_compat_neg_l; lra.
  - specialize (P2 ltac:(lra)). apply pol_upper with (z := zG K G) (zi := zG Ki Gi); auto; try lra.
    apply le_div_iff in P2; lra.
Qed.
Lemma eff_G_lower z' : z' <= zG K G -> z' <= zG Ki Gi -> 0 < Gi -> 0 < Gi + z' -> pol G Gi z' <= (Gi - G) * sphQ K G Ki Gi al.
Proof.
  intros H1 H2 H3 H4. destruct (PQ_shape K G Ki Gi HK HG HKi HGi HO al Hal) as (_ & _ & P1 & P2). assert (0 < zG K G) by (apply zG_pos; lra). assert (0 <= zG Ki Gi) by (apply zG_nonneg; lra).
  specialize (P2 ltac:(lra)). apply pol_lower with (z := zG K G) (zi := zG Ki Gi); auto; try lra.
  apply le_div_iff in P2; lra.
Qed.
End Effect.

(** ** The differential scheme *)
Lemma nondec (F F' : R -> R) a b : a <= b -> (forall t, a <= t <= b -> derivable_pt_lim F t (F' t) /\ 0 <= F' t) -> F a <= F b.
Proof.
  intros Hab H. destruct (Req_dec a b) as [->|N]; [lra|].
  destruct (MVT_cor2 F F' a b) as (c & E & Hc); [lra|intros c Hc; apply H; lra|]. assert (0 <= F' c) by (apply H; lra). assert (0 <= F' c * (b - a)) by (apply Rmult_le_pos; lra). lra.
Qed.
Section Compare.
Variables (X X' : R -> R) (Xi z T : R).
Hypotheses (HT : 0 <= T < 1) (Hi : 0 < Xi + z) (HD : forall t, 0 <= t <= T -> derivable_pt_lim X t (X' t)) (Hp : forall t, 0 <= t <= T -> 0 < X t + z).
Let V (t : R) : R := (1 / (X t + z) - 1 / (Xi + z)) / (1 - t).
Let V' (t : R) : R := (pol (X t) Xi z - (1 - t) * X' t) / ((X t + z)^2 * (1 - t)^2).
Lemma V_deriv t : 0 <= t <= T -> derivable_pt_lim V t (V' t).
Proof.
  intros Ht. assert (P := Hp t Ht). assert (D := HD t Ht). apply is_derive_Reals in D. apply is_derive_Reals. unfold V.
  evar_last. { auto_derive. - repeat split; try (eexists; exact D); lra. - reflexivity. }
  replace (Derive (fun x : R => X x) t) with (X' t) by (symmetry; apply is_derive_unique; exact D).
  unfold V', pol. field. repeat split; lra.
Qed.
Lemma V_end : walpole z (1 - T) (X 0) Xi + z = / (/ (Xi + z) + (1 - T) * V 0) /\ X T + z = / (/ (Xi + z) + (1 - T) * V T) /\ 0 < / (Xi + z) + (1 - T) * V 0 /\ 0 < / (Xi + z) + (1 - T) * V T.
Proof.
  assert (P0 := Hp 0 ltac:(lra)). assert (PT := Hp T ltac:(lra)). unfold V.
  assert (E0 : / (Xi + z) + (1 - T) * ((1 / (X 0 + z) - 1 / (Xi + z)) / (1 - 0)) = (1 - T) / (X 0 + z) + (1 - (1 - T)) / (Xi + z)) by (field; lra).
  assert (ET : / (Xi + z) + (1 - T) * ((1 / (X T + z) - 1 / (Xi + z)) / (1 - T)) = / (X T + z)) by (field; lra).
  rewrite E0, ET. split; [unfold walpole; ring|]. split; [rewrite Rinv_inv; reflexivity|]. split; [|apply Rinv_0_lt_compat; lra].
  assert (0 < (1 - T) / (X 0 + z)) by (apply Rdiv_lt_0_compat; lra). assert (0 <= (1 - (1 - T)) / (Xi + z)) by (apply le_div_iff; lra). lra.
Qed.
Lemma below_walpole : (forall t, 0 <= t <= T -> (1 - t) * X' t <= pol (X t) Xi z) -> X T <= walpole z (1 - T) (X 0) Xi.
Proof.
  intros H. destruct V_end as (E0 & E1 & P0 & P1). assert (M : V 0 <= V T).
  { apply nondec with V'; [lra|]. intros t Ht. split; [apply V_deriv; auto|]. unfold V'. apply le_div_iff.
    - apply Rmult_lt_0_compat; apply pow_lt; [apply Hp; auto|lra].
    - rewrite Rmult_0_l. assert (Q := H t Ht). lra. }
  assert (/ (/ (Xi + z) + (1 - T) * V T) <= / (/ (Xi + z) + (1 - T) * V 0)); [|lra]. apply Rinv_le_contravar; [exact P0|].
  assert ((1 - T) * V 0 <= (1 - T) * V T) by (apply Rmult_le_compat_l; lra). lra.
Qed.
Lemma above_walpole : (forall t, 0 <= t <= T -> pol (X t) Xi z <= (1 - t) * X' t) -> walpole z (1 - T) (X 0) Xi <= X T.
Proof.
  intros H. destruct V_end as (E0 & E1 & P0 & P1). assert (M : - V 0 <= - V T).
  { apply nondec with (F := fun t => - V t) (F' := fun t => - V' t); [lra|]. intros t Ht. split; [apply (derivable_pt_lim_opp V), V_deriv; auto|]. unfold V'.
    replace (- ((pol (X t) Xi z - (1 - t) * X' t) / ((X t + z)^2 * (1 - t)^2))) with (((1 - t) * X' t - pol (X t) Xi z) / ((X t + z)^2 * (1 - t)^2)) by (field; split; [lra|apply Rgt_not_eq, Hp; auto]).
    apply le_div_iff.
    - apply Rmult_lt_0_compat; apply pow_lt; [apply Hp; auto|lra].
    - rewrite Rmult_0_l. assert (Q := H t Ht). lra. }
  assert (/ (/ (Xi + z) + (1 - T) * V 0) <= / (/ (Xi + z) + (1 - T) * V T)); [|lra]. apply Rinv_le_contravar; [exact P1|].
  assert ((1 - T) * V T <= (1 - T) * V 0) by (apply Rmult_le_compat_l; lra). lra.
Qed.
End Compare.

Lemma zG_mono0 K K' G G' : 0 <= K -> 0 <= G -> 0 < K' -> 0 < G' -> K <= K' -> G <= G' -> zG K G <= zG K' G'.
Proof.
  intros H1 H2 H3 H4 H5 H6. assert (P := zG_pos K' G' H3 H4). destruct (Req_dec G 0) as [->|NG].
  - unfold zG at 1. unfold Rdiv at 1. rewrite !Rmult_0_l. lra.
  - unfold zG. replace (G / 6 * ((9 * K + 8 * G) / (K + 2 * G))) with (G * (9 * K + 8 * G) / (6 * (K + 2 * G))) by (field; lra).
    replace (G' / 6 * ((9 * K' + 8 * G') / (K' + 2 * G'))) with (G' * (9 * K' + 8 * G') / (6 * (K' + 2 * G'))) by (field; lra).
    apply Rle_trans with (G' * (9 * K + 8 * G') / (6 * (K + 2 * G'))).
    + apply div_le_iff; [lra|]. replace (G' * (9 * K + 8 * G') / (6 * (K + 2 * G')) * (6 * (K + 2 * G))) with (G' * (9 * K + 8 * G') * (K + 2 * G) / (K + 2 * G')) by (field; lra).
      apply le_div_iff; [lra|]. assert (0 <= (G' - G) * (9 * K * K + 8 * K * (G + G') + 16 * G * G')); [|lra]. apply Rmult_le_pos; [lra|].
      assert (0 <= K * K) by nra. assert (0 <= K * G) by nra. assert (0 <= K * G') by nra. assert (0 <= G * G') by nra. lra.
    + apply div_le_iff; [lra|]. replace (G' * (9 * K' + 8 * G') / (6 * (K' + 2 * G')) * (6 * (K + 2 * G'))) with (G' * (9 * K' + 8 * G') * (K + 2 * G') / (K' + 2 * G')) by (field; lra).
      apply le_div_iff; [lra|]. assert (0 <= G' * G' * (K' - K)); [|lra]. apply Rmult_le_pos; [|lra]. nra.
Qed.
Section DEM.
Variables (m : mode) (Ki Gi al : R) (K G K' G' : R -> R).
Hypotheses (HKi : 0 <= Ki) (HGi : 0 <= Gi) (Hal : 0 < al <= 1).
Hypothesis (Ho : forall t, 0 <= t < 1 -> 0 < K t /\ 0 < G t /\ derivable_pt_lim K t (K' t) /\ derivable_pt_lim G t (G' t) /\
    EM_DEM m (Fin (K t)) (Fin (G t)) (Fin t) (Fin Gi, Fin Ki, al) = Ret (Fin (K' t), Fin (G' t))).
Hypothesis (Hord : Ki <= K 0 /\ Gi <= G 0 \/ K 0 <= Ki /\ G 0 <= Gi).
Lemma dem_rhs t : 0 <= t < 1 -> (1 - t) * K' t = (Ki - K t) * sphP (K t) (G t) Ki Gi al /\ (1 - t) * G' t = (Gi - G t) * sphQ (K t) (G t) Ki Gi al.
Proof.
  intros Ht. destruct (Ho t Ht) as (A & B & _ & _ & E). rewrite DEM_eval in E by (auto; lra). injection E as <- <-. split; field; lra.
Qed.
Lemma dem_between t : 0 <= t < 1 -> Rmin (K 0) Ki <= K t <= Rmax (K 0) Ki /\ Rmin (G 0) Gi <= G t <= Rmax (G 0) Gi.
Proof.
  intros Ht.
  assert (X : forall u, 0 <= u < 1 -> (K u - Ki) * K' u <= 0 /\ (G u - Gi) * G' u <= 0).
  { intros u Hu. destruct (dem_rhs u Hu) as (E1 & E2). destruct (Ho u Hu) as (A & B & _).
    destruct (PQ_all m (K u) (G u) Ki Gi A B HKi HGi al Hal) as (_ & _ & P1 & Q1).
    set (p := sphP (K u) (G u) Ki Gi al) in *. set (q := sphQ (K u) (G u) Ki Gi al) in *.
    assert (0 <= (K u - Ki)^2 * p) by (apply Rmult_le_pos; [apply pow2_ge_0|lra]). assert (0 <= (G u - Gi)^2 * q) by (apply Rmult_le_pos; [apply pow2_ge_0|lra]).
    split; apply (Rmult_le_reg_l (1 - u)); try lra.
    - replace ((1 - u) * ((K u - Ki) * K' u)) with ((K u - Ki) * ((1 - u) * K' u)) by ring. rewrite E1. lra.
    - replace ((1 - u) * ((G u - Gi) * G' u)) with ((G u - Gi) * ((1 - u) * G' u)) by ring. rewrite E2. lra. }
  split; [apply relax_to with K'|apply relax_to with G']; try lra; intros u Hu; (split; [apply Ho; lra|apply X; lra]).
Qed.
Lemma dem_ord t : 0 <= t < 1 -> 0 <= (Ki - K t) * (Gi - G t).
Proof.
  intros Ht. destruct (dem_between t Ht) as (A & B). unfold Rmin, Rmax in A, B.
  destruct Hord as [(C & D)|(C & D)]; destruct (Rle_dec (K 0) Ki), (Rle_dec (G 0) Gi); try lra; nra.
Qed.
Variable T : R.
Hypothesis HT : 0 <= T < 1.
Lemma dem_K_upper z : zK (G 0) <= z -> zK Gi <= z -> K T <= walpole z (1 - T) (K 0) Ki.
Proof.
  intros Z1 Z2. assert (Z0 : 0 < z) by (destruct (Ho 0 ltac:(lra)) as (_ & B & _); unfold zK in *; lra). apply below_walpole with K'; try lra.
  - intros t Ht. apply Ho. lra.
  - intros t Ht. destruct (Ho t ltac:(lra)) as (? & _). lra.
  - intros t Ht. destruct (dem_rhs t ltac:(lra)) as (-> & _). destruct (Ho t ltac:(lra)) as (? & ? & _).
    apply eff_K_upper; auto; [apply dem_ord; lra|]. destruct (dem_between t ltac:(lra)) as (_ & B). unfold Rmax in B. unfold zK in *. destruct (Rle_dec (G 0) Gi); lra.
Qed.
Lemma dem_K_lower z : z <= zK (G 0) -> z <= zK Gi -> 0 <= z -> 0 < Ki + z -> walpole z (1 - T) (K 0) Ki <= K T.
Proof.
  intros Z1 Z2 Z0 Z3. apply above_walpole with K'; try lra.
  - intros t Ht. apply Ho. lra.
  - intros t Ht. destruct (Ho t ltac:(lra)) as (? & _). lra.
  - intros t Ht. destruct (dem_rhs t ltac:(lra)) as (-> & _). destruct (Ho t ltac:(lra)) as (? & ? & _).
    apply eff_K_lower; auto; [apply dem_ord; lra|]. destruct (dem_between t ltac:(lra)) as (_ & B). unfold Rmin in B. unfold zK in *. destruct (Rle_dec (G 0) Gi); lra.
Qed.
Lemma dem_G_upper z : zG (K 0) (G 0) <= z -> zG Ki Gi <= z -> G T <= walpole z (1 - T) (G 0) Gi.
Proof.
  intros Z1 Z2. assert (Z0 : 0 < z) by (destruct (Ho 0 ltac:(lra)) as (A & B & _); assert (P := zG_pos _ _ A B); lra). apply below_walpole with G'; try lra.
  - intros t Ht. apply Ho. lra.
  - intros t Ht. destruct (Ho t ltac:(lra)) as (_ & ? & _). lra.
  - intros t Ht. destruct (dem_rhs t ltac:(lra)) as (_ & ->). destruct (Ho t ltac:(lra)) as (? & ? & _).
    apply eff_G_upper; auto; [apply dem_ord; lra|]. destruct (dem_between t ltac:(lra)) as (A & B). unfold Rmax, Rmin in A, B.
    destruct Hord as [(C & D)|(C & D)].
    + apply Rle_trans with (zG (K 0) (G 0)); [apply zG_mono; auto|lra]; destruct (Rle_dec (G 0) Gi), (Rle_dec (K 0) Ki); lra.
    + apply Rle_trans with (zG Ki Gi); [apply zG_mono; auto|lra]; destruct (Rle_dec (G 0) Gi), (Rle_dec (K 0) Ki); lra.
Qed.
Lemma dem_G_lower z : z <= zG (K 0) (G 0) -> z <= zG Ki Gi -> 0 <= z -> 0 < Gi -> walpole z (1 - T) (G 0) Gi <= G T.
Proof.
  intros Z1 Z2 Z0 Z3. destruct (Ho 0 ltac:(lra)) as (K0 & G0 & _). apply above_walpole with G'; try lra.
  - intros t Ht. apply Ho. lra.
  - intros t Ht. destruct (Ho t ltac:(lra)) as (_ & ? & _). lra.
  - intros t Ht. destruct (dem_rhs t ltac:(lra)) as (_ & ->). destruct (Ho t ltac:(lra)) as (? & ? & _).
    apply eff_G_lower; auto; try lra; [apply dem_ord; lra|]. destruct (dem_between t ltac:(lra)) as (A & B). unfold Rmax, Rmin in A, B.
    destruct Hord as [(C & D)|(C & D)].
    + apply Rle_trans with (zG Ki Gi); [lra|apply zG_mono0; auto]; destruct (Rle_dec (G 0) Gi), (Rle_dec (K 0) Ki); lra.
    + apply Rle_trans with (zG (K 0) (G 0)); [lra|apply zG_mono; auto]; destruct (Rle_dec (G 0) Gi), (Rle_dec (K 0) Ki); lra.
Qed.
End DEM.

(** ** The self-consistent equations *)
Section SC.
Variables (Ks Gs : R).
Hypotheses (HK : 0 < Ks) (HG : 0 < Gs).
Lemma sc_upper (x k p : phase -> R) X z L : 0 < X + z -> List.Forall (fun q => 0 <= x q /\ 0 < k q + z /\ (k q - X) * p q <= pol X (k q) z) L ->
  sumf x L = 1 -> sumf (fun q => x q * (k q - X) * p q) L = 0 -> (X + z) * sumf (fun q => x q / (k q + z)) L <= 1.
Proof.
  intros HX H S E. assert (I : sumf (fun q => x q * (k q - X) * p q) L <= sumf (fun q => (X + z) * (x q - (X + z) * (x q / (k q + z)))) L).
  { clear S E. induction L as [|q L IH]; [unfold sumf; cbn; lra|]. inversion_clear H as [|? ? (A & B & C) HL]. specialize (IH HL). rewrite !sumf_cons.
    apply Rplus_le_compat; [|exact IH]. replace ((X + z) * (x q - (X + z) * (x q / (k q + z)))) with (x q * pol X (k q) z) by (unfold pol; field; lra).
    rewrite Rmult_assoc. apply Rmult_le_compat_l; auto. }
  rewrite sumf_scal in I. rewrite E in I.
  assert (J : sumf (fun q => x q - (X + z) * (x q / (k q + z))) L = 1 - (X + z) * sumf (fun q => x q / (k q + z)) L).
  { rewrite (sumf_ext_all _ (fun q => x q + (- (X + z)) * (x q / (k q + z)))) by (intros; ring). rewrite sumf_plus, sumf_scal, S. ring. }
  rewrite J in I. assert (0 <= 1 - (X + z) * sumf (fun q => x q / (k q + z)) L); [|lra]. apply (Rmult_le_reg_l (X + z)); lra.
Qed.
Lemma sc_lower (x k p : phase -> R) X z L : 0 < X + z -> List.Forall (fun q => 0 <= x q /\ 0 < k q + z /\ pol X (k q) z <= (k q - X) * p q) L ->
  sumf x L = 1 -> sumf (fun q => x q * (k q - X) * p q) L = 0 -> 1 <= (X + z) * sumf (fun q => x q / (k q + z)) L.
Proof.
  intros HX H S E. assert (I : sumf (fun q => (X + z) * (x q - (X + z) * (x q / (k q + z)))) L <= sumf (fun q => x q * (k q - X) * p q) L).
  { clear S E. induction L as [|q L IH]; [unfold sumf; cbn; lra|]. inversion_clear H as [|? ? (A & B & C) HL]. specialize (IH HL). rewrite !sumf_cons.
    apply Rplus_le_compat; [|exact IH]. replace ((X + z) * (x q - (X + z) * (x q / (k q + z)))) with (x q * pol X (k q) z) by (unfold pol; field; lra).
    rewrite Rmult_assoc. apply Rmult_le_compat_l; auto. }
  rewrite sumf_scal in I. rewrite E in I.
  assert (J : sumf (fun q => x q - (X + z) * (x q / (k q + z))) L = 1 - (X + z) * sumf (fun q => x q / (k q + z)) L).
  { rewrite (sumf_ext_all _ (fun q => x q + (- (X + z)) * (x q / (k q + z)))) by (intros; ring). rewrite sumf_plus, sumf_scal, S. ring. }
  rewrite J in I. assert (1 - (X + z) * sumf (fun q => x q / (k q + z)) L <= 0); [|lra]. apply (Rmult_le_reg_l (X + z)); lra.
Qed.
End SC.

(** ** The sphere, the disc, and inclusions of opposite contrast *)
Lemma sph1 K G Ki Gi : 0 < K -> 0 < G -> 0 <= Ki -> 0 <= Gi ->
  sphP K G Ki Gi 1 = (K + zK G) / (Ki + zK G) /\ sphQ K G Ki Gi 1 = (G + zG K G) / (Gi + zG K G).
Proof.
  intros HK HG HKi HGi. destruct (sph_gh K G Ki Gi HK HG HKi HGi) as (G1 & H1). unfold sphP, sphQ. destruct (Req_EM_T 1 1); [|lra].
  rewrite sph_P, sph_Q by lra.
  assert (Pz := zG_pos K G HK HG).
  assert (Eh : 1 + (Gi / G - 1 + 3 * ((Ki / K - Gi / G) / 3)) * (1 - 4/3 * (G / (K + 4/3*G))) = (Ki + zK G) / (K + zK G)) by (unfold zK; field; lra).
  assert (Eg : 1 + (Gi / G - 1) * (2/5 + 4/15 * (G / (K + 4/3*G))) = (Gi + zG K G) / (G + zG K G)). { unfold zG. field. repeat split; try lra. nra. }
  rewrite Eh, Eg. assert (0 < zK G) by (unfold zK; lra). split; field; lra.
Qed.
Lemma P_opposite A k r f th : -1 <= A -> -1 <= k -> A * k <= 0 -> 0 < r < 3/4 -> 0 < th <= 2/3 -> f <= 0 -> 0 <= f + th ->
  pqP A ((k - A) / 3) r f th <= 1 / (1 + k * (1 - 4/3 * r)).
Proof.
  intros HA Hk HAk Hr Ht Hf Hft. assert (P1 := pos_F1 A r f th HA Hr Ht Hf Hft). assert (P2 := pos_F2 A k r f th HA Hk Hr Ht Hf Hft).
  assert (H := h_pos k r Hk Hr). assert (E := e_pos r Hr). set (h := 1 + k * (1 - 4/3 * r)) in *.
  unfold pqP. apply div_le_iff; [exact P2|]. replace (1 / h * pF2 A ((k - A) / 3) r f th) with (pF2 A ((k - A) / 3) r f th / h) by (field; lra).
  apply le_div_iff; [exact H|]. rewrite F2_split. fold h.
  assert (0 <= (3 - 4 * r) * r * (- (A * k)) * (th - 2/3)^2) by (apply Rmult_le_pos; [apply Rmult_le_pos; lra|apply pow2_ge_0]). lra.
Qed.
Lemma opposite K G Ki Gi al : 0 < K -> 0 < G -> 0 <= Ki -> 0 <= Gi -> (Ki - K) * (Gi - G) <= 0 -> 0 < al <= 1 ->
  sphP K G Ki Gi al <= sphP K G Ki Gi 1.
Proof.
  intros HK HG HKi HGi HO Hal. destruct (Req_dec al 1) as [->|N]; [lra|]. destruct (sph1 K G Ki Gi HK HG HKi HGi) as (-> & _).
  unfold sphP. destruct (Req_EM_T al 1); [lra|]. destruct (obl_bounds al ltac:(lra)) as (B1 & B2 & B3). assert (0 < al^2) by nra.
  assert (XA := obl_A G Gi HG HGi). assert (Xr := obl_r K G HK HG).
  assert (Xk : -1 <= Ki / K - 1) by (assert (0 <= Ki / K) by (apply le_div_iff; lra); lra).
  replace ((Ki / K - Gi / G) / 3) with ((Ki / K - 1 - (Gi / G - 1)) / 3) by (field; lra).
  assert (XX : (Gi / G - 1) * (Ki / K - 1) <= 0).
  { replace ((Gi / G - 1) * (Ki / K - 1)) with ((Ki - K) * (Gi - G) / (K * G)) by (field; lra). apply div_le_iff; [nra|]. lra. }
  apply Rle_trans with (1 := P_opposite _ _ _ (obl_f al) (obl_theta al) XA Xk XX Xr ltac:(lra) ltac:(lra) ltac:(lra)).
  right. assert (0 <= Ki * K) by nra. assert (0 < K * G) by nra. unfold zK. field. repeat split; try lra.
Qed.
Lemma disc_limit K G Ki Gi : 0 < K -> 0 < G -> 0 <= Ki -> 0 < Gi ->
  limit1_in (sphP K G Ki Gi) in01 ((K + zK Gi) / (Ki + zK Gi)) 0 /\ limit1_in (sphQ K G Ki Gi) in01 ((G + zG Ki Gi) / (Gi + zG Ki Gi)) 0.
Proof.
  intros HK HG HKi HGi. assert (T := lim_thin). assert (I0 := lim_id in01 0). assert (PP := PI_RGT_0).
  assert (Th : limit1_in obl_theta in01 0 0).
  { apply lim_ext with (fun a => a * thin a); [eapply lim_eq; [lim|ring]|]. intros a Ha. symmetry. apply obl_thin, Ha. }
  assert (Fh : limit1_in obl_f in01 0 0).
  { apply lim_ext with (fun a => a * (a * ((3 * (a * thin a) - 2) / (1 - a^2)))); [eapply lim_eq; [lim; lra|field]|]. intros a Ha. symmetry. apply obl_f_thin, Ha. }
  set (A := Gi / G - 1). set (B := (Ki / K - Gi / G) / 3). set (r := G / (K + 4/3*G)).
  assert (0 <= Ki * K) by nra. assert (0 < K * G) by nra. assert (0 < Gi * G) by nra. assert (0 < Gi * K) by nra. assert (0 <= Ki * G) by nra. assert (0 <= Ki * Gi) by nra. assert (0 < Gi * Gi) by nra.
  assert (N2 : pF2 A B r 0 0 = (Ki + zK Gi) / (K + zK G)) by (unfold pF2, A, B, r, zK; field; lra).
  assert (N3 : pF3 A r 0 0 = Gi / G) by (unfold pF3, A; field; lra).
  assert (N4 : pF4 A r 0 0 = 1) by (unfold pF4; field).
  assert (Q2 : 0 < pF2 A B r 0 0) by (rewrite N2; unfold zK; apply Rdiv_lt_0_compat; lra).
  assert (Q3 : 0 < pF3 A r 0 0) by (rewrite N3; apply Rdiv_lt_0_compat; lra).
  assert (L1 : limit1_in (fun a => pF1 A r (obl_f a) (obl_theta a)) in01 (pF1 A r 0 0) 0) by (unfold pF1; lim).
  assert (L2 : limit1_in (fun a => pF2 A B r (obl_f a) (obl_theta a)) in01 (pF2 A B r 0 0) 0) by (unfold pF2; lim).
  assert (L3 : limit1_in (fun a => pF3 A r (obl_f a) (obl_theta a)) in01 (pF3 A r 0 0) 0) by (unfold pF3; lim).
  assert (L4 : limit1_in (fun a => pF4 A r (obl_f a) (obl_theta a)) in01 (pF4 A r 0 0) 0) by (unfold pF4; lim).
  assert (L5 : limit1_in (fun a => pF5 A B r (obl_f a) (obl_theta a)) in01 (pF5 A B r 0 0) 0) by (unfold pF5; lim).
  assert (L6 : limit1_in (fun a => pF6 A B r (obl_f a) (obl_theta a)) in01 (pF6 A B r 0 0) 0) by (unfold pF6; lim).
  assert (L7 : limit1_in (fun a => pF7 A B r (obl_f a) (obl_theta a)) in01 (pF7 A B r 0 0) 0) by (unfold pF7; lim).
  assert (L8 : limit1_in (fun a => pF8 A B r (obl_f a) (obl_theta a)) in01 (pF8 A B r 0 0) 0) by (unfold pF8; lim; lra).
  assert (L9 : limit1_in (fun a => pF9 A B r (obl_f a) (obl_theta a)) in01 (pF9 A B r 0 0) 0) by (unfold pF9; lim).
  split.
  - apply lim_ext with (fun a => pqP A B r (obl_f a) (obl_theta a)).
    + eapply lim_eq; [unfold pqP; lim; lra|]. rewrite N2. unfold pF1, A, r, zK. field. repeat split; lra.
    + intros a (? & ?). unfold sphP. destruct (Req_EM_T a 1); [lra|reflexivity].
  - apply lim_ext with (fun a => pqQ A B r (obl_f a) (obl_theta a)).
    + eapply lim_eq; [unfold pqQ; lim; rewrite ?N4; try lra|]. rewrite N2, N3, N4.
      unfold pF5, pF6, pF7, pF8, pF9, A, B, r, zK, zG. field. repeat split; lra.
    + intros a (? & ?). unfold sphQ. destruct (Req_EM_T a 1); [lra|reflexivity].
Qed.

(** ** Empty spherical pores, differential scheme: the ratio 3K/4G moves towards 1 *)
Section Dry.
Variables (m : mode) (K G K' G' : R -> R).
Hypothesis (Ho : forall t, 0 <= t < 1 -> 0 < K t /\ 0 < G t /\ derivable_pt_lim K t (K' t) /\ derivable_pt_lim G t (G' t) /\
    EM_DEM m (Fin (K t)) (Fin (G t)) (Fin t) (Fin 0, Fin 0, 1) = Ret (Fin (K' t), Fin (G' t))).
Let y (t : R) : R := 3/4 * K t / G t.
Lemma dry_rhs t : 0 <= t < 1 -> (1 - t) * K' t = - K t * (1 + y t) /\ (1 - t) * G' t = - G t * (1 + (2 * y t + 3) / (3 * y t + 2)) /\ 0 < y t.
Proof.
  intros Ht. destruct (Ho t Ht) as (A & B & _ & _ & E). rewrite DEM_eval in E by (auto; lra). injection E as <- <-.
  destruct (sph1 (K t) (G t) 0 0) as (-> & ->); try lra.
  assert (0 < K t * G t) by nra. assert (0 < K t * K t) by nra. assert (0 < G t * G t) by nra. unfold y, zK, zG. repeat split.
  - field. lra.
  - field. repeat split; nra.
  - apply Rdiv_lt_0_compat; lra.
Qed.
Lemma y_deriv t : 0 <= t < 1 -> derivable_pt_lim y t (- (3 * y t * (y t ^ 2 - 1) / ((3 * y t + 2) * (1 - t)))).
Proof.
  intros Ht. destruct (Ho t Ht) as (A & B & D1 & D2 & _). destruct (dry_rhs t Ht) as (E1 & E2 & Y). apply is_derive_Reals in D1. apply is_derive_Reals in D2. apply is_derive_Reals. unfold y.
  evar_last. { auto_derive. - repeat split; try (eexists; eassumption); lra. - reflexivity. }
  replace (Derive (fun x : R => K x) t) with (K' t) by (symmetry; apply is_derive_unique; exact D1).
  replace (Derive (fun x : R => G x) t) with (G' t) by (symmetry; apply is_derive_unique; exact D2). fold (y t).
  replace (K' t) with (- K t * (1 + y t) / (1 - t)) by (rewrite <- E1; field; lra).
  replace (G' t) with (- G t * (1 + (2 * y t + 3) / (3 * y t + 2)) / (1 - t)) by (rewrite <- E2; field; lra).
  replace (K t) with (4/3 * (y t * G t)) by (unfold y; field; lra). field. lra.
Qed.
Lemma y_between t : 0 <= t < 1 -> Rmin (y 0) 1 <= y t <= Rmax (y 0) 1.
Proof.
  intros Ht. apply relax_to with (fun t => - (3 * y t * (y t ^ 2 - 1) / ((3 * y t + 2) * (1 - t)))); [lra|]. intros u Hu. split; [apply y_deriv; lra|].
  destruct (dry_rhs u ltac:(lra)) as (_ & _ & Y).
  replace ((y u - 1) * - (3 * y u * (y u ^ 2 - 1) / ((3 * y u + 2) * (1 - u)))) with (- (3 * y u * ((y u - 1)^2 * (y u + 1)) / ((3 * y u + 2) * (1 - u)))) by (field; lra).
  assert (0 <= 3 * y u * ((y u - 1)^2 * (y u + 1)) / ((3 * y u + 2) * (1 - u))); [|lra].
  apply le_div_iff; [apply Rmult_lt_0_compat; lra|]. rewrite Rmult_0_l. apply Rmult_le_pos; [lra|]. apply Rmult_le_pos; [apply pow2_ge_0|lra].
Qed.
Lemma dry_square t : 0 <= t < 1 -> K 0 = 4/3 * G 0 -> K t = K 0 * (1 - t)^2 /\ G t = G 0 * (1 - t)^2.
Proof.
  intros Ht E0. destruct (Ho 0 ltac:(lra)) as (K0 & G0 & _).
  assert (Y0 : y 0 = 1) by (unfold y; rewrite E0; field; lra).
  assert (Y : forall u, 0 <= u < 1 -> y u = 1). { intros u Hu. assert (X := y_between u Hu). rewrite Y0 in X. unfold Rmin, Rmax in X. destruct (Rle_dec 1 1); lra. }
  assert (KG : forall u, 0 <= u < 1 -> K u = 4/3 * G u). { intros u Hu. destruct (Ho u Hu) as (A & B & _). assert (Z := Y u Hu). unfold y in Z.
    replace (K u) with (4/3 * (3/4 * K u / G u) * G u) by (field; lra). rewrite Z. ring. }
  assert (X : K t / (1 - t)^2 = K 0 / (1 - 0)^2).
  { assert (D : forall u, 0 <= u <= t -> derivable_pt_lim (fun u => K u / (1 - u)^2) u 0).
    { intros u Hu. destruct (Ho u ltac:(lra)) as (_ & _ & D & _). destruct (dry_rhs u ltac:(lra)) as (E & _). rewrite Y in E by lra.
      apply is_derive_Reals in D. apply is_derive_Reals. assert (Q : 0 < (1 - u)^2) by (apply pow_lt; lra). evar_last. { auto_derive. - repeat split; try (eexists; exact D). replace ((1 + - u) * ((1 + - u) * 1)) with ((1 - u)^2) by ring. lra. - reflexivity. }
      replace (Derive (fun x : R => K x) u) with (K' u) by (symmetry; apply is_derive_unique; exact D).
      replace (K' u) with (- K u * (1 + 1) / (1 - u)) by (rewrite <- E; field; lra). change (1 + - u) with (1 - u). field. lra. }
    destruct (Req_dec t 0) as [->|N]; [reflexivity|].
    destruct (MVT_cor2 (fun u => K u / (1 - u)^2) (fun _ => 0) 0 t) as (c & E & _); [lra|exact D|]. cbv beta in E. lra. }
  assert (P : 0 < (1 - t)^2) by (apply pow_lt; lra).
  assert (EK : K t = K 0 * (1 - t)^2). { replace (K t) with (K t / (1 - t)^2 * (1 - t)^2) by (field; lra). rewrite X. field. }
  split; [exact EK|]. rewrite KG in EK by lra. rewrite E0 in EK. lra.
Qed.
Lemma poisson_y t : 0 <= t < 1 -> poisson (K t) (G t) = 1/2 - 3 / (8 * y t + 2).
Proof. intros Ht. destruct (Ho t Ht) as (A & B & _). assert (0 < y t) by (unfold y; apply Rdiv_lt_0_compat; lra). unfold poisson, y in *. field. repeat split; try lra. Qed.
Lemma poisson_drift t : 0 <= t < 1 -> Rmin (poisson (K 0) (G 0)) (1/5) <= poisson (K t) (G t) <= Rmax (poisson (K 0) (G 0)) (1/5).
Proof.
  intros Ht. rewrite !poisson_y by lra. assert (B := y_between t Ht). destruct (dry_rhs t Ht) as (_ & _ & Yt). destruct (dry_rhs 0 ltac:(lra)) as (_ & _ & Y0).
  assert (M : forall a b, 0 < a -> a <= b -> 1/2 - 3 / (8 * a + 2) <= 1/2 - 3 / (8 * b + 2)).
  { intros a b Ha Hb. assert (3 / (8 * b + 2) <= 3 / (8 * a + 2)) by (unfold Rdiv; apply Rmult_le_compat_l; [lra|apply Rinv_le_contravar; lra]). lra. }
  replace (1/5) with (1/2 - 3 / (8 * 1 + 2)) by field.
  unfold Rmin in B at 1; unfold Rmax in B at 1. destruct (Rle_dec (y 0) 1).
  - assert (M1 := M (y 0) (y t) Y0 ltac:(lra)). assert (M2 := M (y t) 1 Yt ltac:(lra)). split; [eapply Rle_trans; [apply Rmin_l|exact M1]|eapply Rle_trans; [exact M2|apply Rmax_r]].
  - assert (M1 := M 1 (y t) ltac:(lra) ltac:(lra)). assert (M2 := M (y t) (y 0) Yt ltac:(lra)). split; [eapply Rle_trans; [apply Rmin_r|exact M1]|eapply Rle_trans; [exact M2|apply Rmax_l]].
Qed.
End Dry.

(** ** An exact solution of the differential scheme: spheres, both materials with 3K = 4G, host shear 4, inclusion shear 1 *)
Definition wit_x (t : R) : R := (3/2 * (1 - t) + sqrt (9/4 * (1 - t)^2 + 4)) / 2.
Definition wit_dx (t : R) : R := - (3/2) * wit_x t / (2 * wit_x t - 3/2 * (1 - t)).
Lemma wit_facts t : 0 <= t < 1 -> 0 < wit_x t /\ wit_x t ^ 2 = 3/2 * (1 - t) * wit_x t + 1 /\ 0 < 2 * wit_x t - 3/2 * (1 - t) /\ derivable_pt_lim wit_x t (wit_dx t).
Proof.
  intros Ht. assert (P : 0 < 9/4 * (1 - t)^2 + 4) by (assert (0 <= (1 - t)^2) by apply pow2_ge_0; lra).
  assert (S := sqrt_lt_R0 _ P). assert (S2 : sqrt (9/4 * (1 - t)^2 + 4) ^ 2 = 9/4 * (1 - t)^2 + 4) by (rewrite <- Rsqr_pow2; apply Rsqr_sqrt; lra).
  assert (X : 0 < wit_x t) by (unfold wit_x; lra).
  assert (W : 0 < 2 * wit_x t - 3/2 * (1 - t)) by (unfold wit_x; lra).
  repeat split; auto.
  - unfold wit_x. set (s := sqrt (9/4 * (1 - t)^2 + 4)) in *. replace (((3/2 * (1 - t) + s) / 2)^2) with ((9/4 * (1 - t)^2 + 3 * (1 - t) * s + s^2) / 4) by field. rewrite S2. field.
  - apply is_derive_Reals. unfold wit_x at 1. evar_last. { auto_derive; [|reflexivity]. replace (9 / 4 * ((1 + - t) * ((1 + - t) * 1)) + 4) with (9/4 * (1 - t)^2 + 4) by ring. exact P. }
    unfold wit_dx. unfold wit_x. replace (9 / 4 * ((1 + - t) * ((1 + - t) * 1)) + 4) with (9/4 * (1 - t)^2 + 4) by ring. set (s := sqrt (9/4 * (1 - t)^2 + 4)) in *. field. lra.
Qed.
Lemma wit_dem m t : 0 <= t < 1 -> let K t := 4/3 * wit_x t ^ 2 in let G t := wit_x t ^ 2 in
  0 < K t /\ 0 < G t /\ derivable_pt_lim K t (4/3 * (2 * wit_x t * wit_dx t)) /\ derivable_pt_lim G t (2 * wit_x t * wit_dx t) /\
  EM_DEM m (Fin (K t)) (Fin (G t)) (Fin t) (Fin 1, Fin (4/3), 1) = Ret (Fin (4/3 * (2 * wit_x t * wit_dx t)), Fin (2 * wit_x t * wit_dx t)).
Proof.
  intros Ht K G. destruct (wit_facts t Ht) as (X & E & W & D). assert (X2 : 0 < wit_x t ^ 2) by (apply pow_lt; lra).
  assert (DG : derivable_pt_lim G t (2 * wit_x t * wit_dx t)).
  { apply is_derive_Reals in D. apply is_derive_Reals. unfold G. evar_last. { apply (is_derive_pow wit_x 2 t (wit_dx t)). exact D. } cbn. ring. }
  split; [unfold K; lra|]. split; [exact X2|]. split; [|split; [exact DG|]].
  - unfold K. apply (derivable_pt_lim_scal G (4/3) t _ DG).
  - unfold K, G. rewrite DEM_eval by lra. destruct (sph1 (4/3 * wit_x t ^ 2) (wit_x t ^ 2) (4/3) 1) as (-> & ->); try lra.
    assert (Z : zG (4/3 * wit_x t ^ 2) (wit_x t ^ 2) = wit_x t ^ 2) by (unfold zG; field; lra). rewrite Z. unfold zK, wit_dx.
    assert (E' : 3/2 * (1 - t) = (wit_x t ^ 2 - 1) / wit_x t) by (rewrite E; field; lra). set (x := wit_x t) in *.
    assert (T : 1 - t = 2/3 * ((x^2 - 1) / x)) by lra. assert (NT : x^2 - 1 <> 0). { intros Q. rewrite Q in E'. unfold Rdiv in E'. lra. }
    assert (N4 : 0 < x^2 + 1) by lra.
    assert (W' : 2 * x - 3/2 * (1 - t) = (x^2 + 1) / x) by (rewrite T; field; lra). rewrite W'.
    rewrite T. reteq; field; repeat split; lra.
Qed.
Lemma wit_0 : wit_x 0 = 2.
Proof. unfold wit_x. replace (9/4 * (1 - 0)^2 + 4) with ((5/2)^2) by field. rewrite <- Rsqr_pow2, sqrt_Rsqr by lra. field. Qed.
Lemma dry_wit m t : 0 <= t < 1 -> let K t := 4 * (1 - t)^2 in let G t := 3 * (1 - t)^2 in
  0 < K t /\ 0 < G t /\ derivable_pt_lim K t (- 8 * (1 - t)) /\ derivable_pt_lim G t (- 6 * (1 - t)) /\
  EM_DEM m (Fin (K t)) (Fin (G t)) (Fin t) (Fin 0, Fin 0, 1) = Ret (Fin (- 8 * (1 - t)), Fin (- 6 * (1 - t))).
Proof.
  intros Ht K G. assert (P : 0 < (1 - t)^2) by (apply pow_lt; lra). split; [unfold K; lra|]. split; [unfold G; lra|].
  split; [|split].
  - apply is_derive_Reals. unfold K. auto_derive; [auto|]. ring.
  - apply is_derive_Reals. unfold G. auto_derive; [auto|]. ring.
  - unfold K, G. rewrite DEM_eval by lra. destruct (sph1 (4 * (1 - t)^2) (3 * (1 - t)^2) 0 0) as (-> & ->); try lra.
    unfold zK, zG. reteq; field; lra.
Qed.

(** ** Two phases of any shapes have a self-consistent root *)
Lemma exd (n1 n2 n3 n4 nn : R -> R) a b s : ex_derive n1 s -> ex_derive n2 s -> ex_derive n3 s -> ex_derive n4 s -> ex_derive nn s -> n2 s <> 0 -> n3 s <> 0 -> n4 s <> 0 ->
  ex_derive (fun s => a * (s * ((2 / n3 s + 1 / n4 s + nn s / (n2 s * n4 s)) / 5)) - b * ((1 - s) * (n1 s / n2 s))) s.
Proof. intros. auto_derive. repeat split; auto. Qed.
Lemma root_path K G al a b : 0 < K -> 0 < G -> 0 < al <= 1 -> 0 < a -> 0 < b -> exists s, 0 < s < 1 /\
  a * (s * sphQ K G (K * (2 - s)) (G * (1 + s)) al) = b * ((1 - s) * sphP K G (K * (2 - s)) (G * (1 + s)) al).
Proof.
  intros HK HG Hal Ha Hb.
  set (F := fun s => a * (s * sphQ K G (K * (2 - s)) (G * (1 + s)) al) - b * ((1 - s) * sphP K G (K * (2 - s)) (G * (1 + s)) al)).
  assert (Pos : forall s, 0 <= s <= 1 -> 0 < sphP K G (K * (2 - s)) (G * (1 + s)) al /\ 0 < sphQ K G (K * (2 - s)) (G * (1 + s)) al).
  { intros s Hs. destruct (PQ_all NumPy K G (K * (2 - s)) (G * (1 + s)) HK HG) with (al := al) as (_ & _ & X & Y); auto; apply Rmult_le_pos; lra. }
  set (f := if Req_EM_T al 1 then -(2/5) else obl_f al). set (th := if Req_EM_T al 1 then 2/3 else obl_theta al). set (r := G / (K + 4/3*G)).
  assert (Bd : 0 < th <= 2/3 /\ f <= 0 /\ 0 <= f + th).
  { unfold f, th. destruct (Req_EM_T al 1); [lra|]. destruct (obl_bounds al ltac:(lra)) as (? & ? & ?). assert (0 < al^2) by nra. lra. }
  assert (Ex : forall s, sphP K G (K * (2 - s)) (G * (1 + s)) al = pqP s ((1 - 2 * s) / 3) r f th /\ sphQ K G (K * (2 - s)) (G * (1 + s)) al = pqQ s ((1 - 2 * s) / 3) r f th).
  { intros s. assert (E1 : G * (1 + s) / G - 1 = s) by (field; lra). assert (E2 : (K * (2 - s) / K - G * (1 + s) / G) / 3 = (1 - 2 * s) / 3) by (field; lra).
    unfold sphP, sphQ. rewrite E1, E2. unfold f, th. destruct (Req_EM_T al 1); auto. }
  assert (Hr := obl_r K G HK HG). fold r in Hr.
  assert (Cont : forall s, 0 <= s <= 1 -> continuity_pt F s).
  { intros s Hs. apply continuity_pt_ext with (fun s => a * (s * pqQ s ((1 - 2 * s) / 3) r f th) - b * ((1 - s) * pqP s ((1 - 2 * s) / 3) r f th)).
    { intros x. unfold F. destruct (Ex x) as (-> & ->). reflexivity. }
    assert (N2 : 0 < pF2 s ((1 - 2 * s) / 3) r f th). { replace ((1 - 2 * s) / 3) with (((1 - s) - s) / 3) by field. apply pos_F2; lra. }
    assert (N3 : 0 < pF3 s r f th) by (apply pos_F3; lra). assert (N4 : 0 < pF4 s r f th) by (apply pos_F4; lra).
    apply continuity_pt_filterlim. apply (ex_derive_continuous (fun s => a * (s * pqQ s ((1 - 2 * s) / 3) r f th) - b * ((1 - s) * pqP s ((1 - 2 * s) / 3) r f th))).
    assert (X1 : ex_derive (fun s => pF1 s r f th) s) by (unfold pF1; auto_derive; auto).
    assert (X2 : ex_derive (fun s => pF2 s ((1 - 2 * s) / 3) r f th) s) by (unfold pF2; auto_derive; auto).
    assert (X3 : ex_derive (fun s => pF3 s r f th) s) by (unfold pF3; auto_derive; auto).
    assert (X4 : ex_derive (fun s => pF4 s r f th) s) by (unfold pF4; auto_derive; auto).
    assert (XN : ex_derive (fun s => pF4 s r f th * pF5 s ((1 - 2 * s) / 3) r f th + pF6 s ((1 - 2 * s) / 3) r f th * pF7 s ((1 - 2 * s) / 3) r f th - pF8 s ((1 - 2 * s) / 3) r f th * pF9 s ((1 - 2 * s) / 3) r f th) s)
      by (unfold pF4, pF5, pF6, pF7, pF8, pF9; auto_derive; auto).
    exact (exd _ _ _ _ _ a b s X1 X2 X3 X4 XN (Rgt_not_eq _ _ N2) (Rgt_not_eq _ _ N3) (Rgt_not_eq _ _ N4)). }
  destruct (Ranalysis5.IVT_interv F 0 1 Cont ltac:(lra)) as (s & Hs & E).
  - destruct (Pos 0 ltac:(lra)) as (X & Y). unfold F. rewrite Rmult_0_l, Rmult_0_r. assert (0 < b * ((1 - 0) * sphP K G (K * (2 - 0)) (G * (1 + 0)) al)) by (apply Rmult_lt_0_compat; [lra|apply Rmult_lt_0_compat; lra]). lra.
  - destruct (Pos 1 ltac:(lra)) as (X & Y). unfold F. assert (0 < a * (1 * sphQ K G (K * (2 - 1)) (G * (1 + 1)) al)) by (apply Rmult_lt_0_compat; [lra|apply Rmult_lt_0_compat; lra]). lra.
  - unfold F in E. exists s. destruct (Pos s Hs) as (X & Y). split; [|lra]. split.
    + destruct (proj1 Hs) as [L|L]; [exact L|]. rewrite <- L in *. exfalso. assert (0 < b * ((1 - 0) * sphP K G (K * (2 - 0)) (G * (1 + 0)) al)) by (apply Rmult_lt_0_compat; [lra|apply Rmult_lt_0_compat; lra]). lra.
    + destruct (proj2 Hs) as [L|L]; [exact L|]. rewrite L in *. exfalso. assert (0 < a * (1 * sphQ K G (K * (2 - 1)) (G * (1 + 1)) al)) by (apply Rmult_lt_0_compat; [lra|apply Rmult_lt_0_compat; lra]). lra.
Qed.

(** ** Roots of the residual of Berryman_func *)
Lemma ph_sph Ks Gs p : phP Ks Gs p = sphP Ks Gs (ph_K p) (ph_G p) (al_used (ph_al p)) /\ phQ Ks Gs p = sphQ Ks Gs (ph_K p) (ph_G p) (al_used (ph_al p)).
Proof.
  assert (N : al_used (ph_al p) <> 1) by (unfold al_used; destruct (Req_EM_T (ph_al p) 1); dec; lra).
  unfold phP, phQ, sphP, sphQ. destruct (Req_EM_T (al_used (ph_al p)) 1); [contradiction|auto].
Qed.
Lemma Rlt_le_weak_al a : 0 < a < 1 -> 0 < a <= 1.
Proof. lra. Qed.
Section Root.
Variables (Ks Gs Kl Kh Gl Gh : R) (L : list phase).
Hypotheses (HK : 0 < Ks) (HG : 0 < Gs) (HL : List.Forall passive L) (Hs : sumf ph_x L = 1).
Hypotheses (RK : sumf (fun p => ph_x p * (ph_K p - Ks) * phP Ks Gs p) L = 0) (RG : sumf (fun p => ph_x p * (ph_G p - Gs) * phQ Ks Gs p) L = 0).
Hypotheses (BK : Kl <= Ks <= Kh) (BG : Gl <= Gs <= Gh) (Hl : 0 < Kl) (Hg : 0 < Gl).
Hypothesis HO : List.Forall (fun p => 0 <= (ph_K p - Ks) * (ph_G p - Gs) /\ Kl <= ph_K p <= Kh /\ Gl <= ph_G p <= Gh) L.
Let both : List.Forall (fun p => passive p /\ 0 <= (ph_K p - Ks) * (ph_G p - Gs) /\ Kl <= ph_K p <= Kh /\ Gl <= ph_G p <= Gh) L.
Proof. rewrite List.Forall_forall in *. intros p Hp. split; auto. Qed.
Lemma wal_le (x k : phase -> R) X z : 0 < X + z -> List.Forall (fun p => 0 <= x p /\ 0 < k p + z) L -> sumf x L = 1 -> (X + z) * sumf (fun q => x q / (k q + z)) L <= 1 -> X <= / sumf (fun q => x q / (k q + z)) L - z.
Proof.
  intros HX HF S H. assert (P : 0 < sumf (fun q => x q / (k q + z)) L).
  { assert (N : 0 <= sumf (fun q => x q / (k q + z)) L).
    { clear - HF. induction L as [|q M IH]; [unfold sumf; cbn; lra|]. inversion_clear HF as [|? ? (A & B) HM]. rewrite sumf_cons. specialize (IH HM). assert (0 <= x q / (k q + z)) by (apply le_div_iff; lra). lra. }
    destruct N as [|N]; [auto|exfalso]. revert S N HF. clear. intros S N HF. assert (Z : sumf x L = 0); [|lra]. clear S. revert N HF. induction L as [|q M IH]; [reflexivity|]. intros N HF.
    inversion_clear HF as [|? ? (A & B) HM]. rewrite sumf_cons in *. assert (0 <= x q / (k q + z)) by (apply le_div_iff; lra).
    assert (0 <= sumf (fun q => x q / (k q + z)) M). { clear - HM. induction M as [|p M IH]; [unfold sumf; cbn; lra|]. inversion_clear HM as [|? ? (A & B) HM']. rewrite sumf_cons. specialize (IH HM'). assert (0 <= x p / (k p + z)) by (apply le_div_iff; lra). lra. }
    rewrite IH by (auto; lra). assert (Q : x q / (k q + z) = 0) by lra. apply (f_equal (fun v => v * (k q + z))) in Q. unfold Rdiv in Q. rewrite Rmult_assoc, Rinv_l, Rmult_0_l, Rmult_1_r in Q by lra. lra. }
  assert (X + z <= / sumf (fun q => x q / (k q + z)) L); [|lra]. apply (Rmult_le_reg_r (sumf (fun q => x q / (k q + z)) L)); [exact P|]. rewrite Rinv_l by lra. exact H.
Qed.
Lemma wal_ge (x k : phase -> R) X z : 0 < X + z -> 1 <= (X + z) * sumf (fun q => x q / (k q + z)) L -> / sumf (fun q => x q / (k q + z)) L - z <= X.
Proof.
  intros HX H. assert (P : 0 < sumf (fun q => x q / (k q + z)) L) by (apply (Rmult_lt_reg_l (X + z)); lra).
  assert (/ sumf (fun q => x q / (k q + z)) L <= X + z); [|lra]. apply (Rmult_le_reg_r (sumf (fun q => x q / (k q + z)) L)); [exact P|]. rewrite Rinv_l by lra. exact H.
Qed.
Lemma root_bounds :
  / sumf (fun p => ph_x p / (ph_K p + zK Gl)) L - zK Gl <= Ks <= / sumf (fun p => ph_x p / (ph_K p + zK Gh)) L - zK Gh /\
  / sumf (fun p => ph_x p / (ph_G p + zG Kl Gl)) L - zG Kl Gl <= Gs <= / sumf (fun p => ph_x p / (ph_G p + zG Kh Gh)) L - zG Kh Gh.
Proof.
  assert (Z1 : 0 < zK Gl) by (unfold zK; lra). assert (Z2 : 0 < zK Gh) by (unfold zK; lra). assert (Z3 := zG_pos Kl Gl Hl Hg). assert (Z4 := zG_pos Kh Gh ltac:(lra) ltac:(lra)).
  split; split.
  - apply wal_ge; [lra|]. apply sc_lower with (p := phP Ks Gs); auto; [lra|]. revert both. apply List.Forall_impl. intros p ((X & Y & Z & W) & O & B1 & B2). split; [auto|]. split; [lra|].
    destruct (ph_sph Ks Gs p) as (-> & _). apply eff_K_lower; auto; try lra; try (unfold zK; lra). apply Rlt_le_weak_al, al_used_in, W.
  - apply wal_le; auto; [lra| |]. { revert both. apply List.Forall_impl. intros p ((X & Y & Z & W) & O & B1 & B2). split; [auto|lra]. }
    apply sc_upper with (p := phP Ks Gs); auto; [lra|]. revert both. apply List.Forall_impl. intros p ((X & Y & Z & W) & O & B1 & B2). split; [auto|]. split; [lra|].
    destruct (ph_sph Ks Gs p) as (-> & _). apply eff_K_upper; auto; try lra; try (unfold zK; lra). apply Rlt_le_weak_al, al_used_in, W.
  - apply wal_ge; [lra|]. apply sc_lower with (p := phQ Ks Gs); auto; [lra|]. revert both. apply List.Forall_impl. intros p ((X & Y & Z & W) & O & B1 & B2). split; [auto|]. split; [lra|].
    destruct (ph_sph Ks Gs p) as (_ & ->). apply eff_G_lower; auto; try lra; try (apply zG_mono; lra). apply Rlt_le_weak_al, al_used_in, W.
  - apply wal_le; auto; [lra| |]. { revert both. apply List.Forall_impl. intros p ((X & Y & Z & W) & O & B1 & B2). split; [auto|lra]. }
    apply sc_upper with (p := phQ Ks Gs); auto; [lra|]. revert both. apply List.Forall_impl. intros p ((X & Y & Z & W) & O & B1 & B2). split; [auto|]. split; [lra|].
    destruct (ph_sph Ks Gs p) as (_ & ->). apply eff_G_upper; auto; try lra; try (apply zG_mono; lra). apply Rlt_le_weak_al, al_used_in, W.
Qed.
End Root.
