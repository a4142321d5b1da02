(** * GM.py: Thomas-Stieber, shale mixing, Hertz-Mindlin, Walton, soft and stiff sand. *)
From Verif Require Import Fl Cx M_Utils M_EM M_GM Spec Spec3 RealLemmas L_EM1.
Open Scope R_scope.

(** ** Cube root *)
Definition cbrt (x : R) : R := if Rlt_dec 0 x then Rpower x (1/3) else 0.
Lemma cbrt_0 : cbrt 0 = 0.
Proof. unfold cbrt. destruct (Rlt_dec 0 0); [lra|reflexivity]. Qed.
Lemma cbrt_pos x : 0 < x -> 0 < cbrt x.
Proof. intros H. unfold cbrt. destruct (Rlt_dec 0 x); [apply exp_pos|contradiction]. Qed.
Lemma cbrt_nonneg x : 0 <= cbrt x.
Proof. unfold cbrt. destruct (Rlt_dec 0 x); [left; apply exp_pos|lra]. Qed.
Lemma cbrt_cube x : 0 <= x -> (cbrt x)^3 = x.
Proof.
  intros H. unfold cbrt. destruct (Rlt_dec 0 x) as [P|P]; [|replace x with 0 by lra; ring].
  rewrite <- (Rpower_pow 3) by apply exp_pos. rewrite Rpower_mult.
  replace (1/3 * INR 3) with 1 by (simpl; field). apply Rpower_1, P.
Qed.
Lemma cube_lt x y : x < y -> x^3 < y^3.
Proof.
  intros H. assert (E : y^3 - x^3 = (y - x) * (((x + y)^2 + x^2 + y^2) / 2)) by field.
  assert (0 < (y - x) * (((x + y)^2 + x^2 + y^2) / 2)); [|lra].
  apply Rmult_lt_0_compat; [lra|].
  assert (0 <= (x+y)^2) by apply pow2_ge_0. assert (0 <= x^2) by apply pow2_ge_0. assert (0 <= y^2) by apply pow2_ge_0.
  destruct (Req_EM_T x 0); [subst; assert (0 < y^2) by (apply pow_lt; lra); lra|].
  assert (0 < x^2) by (replace (x^2) with (x * x) by ring; apply Rsqr_pos_lt; assumption). lra.
Qed.
Lemma cube_inj x y : x^3 = y^3 -> x = y.
Proof.
  intros H. destruct (Rtotal_order x y) as [L|[E|L]]; auto; apply cube_lt in L; lra.
Qed.
Lemma cube_lt_inv x y : x^3 < y^3 -> x < y.
Proof.
  intros H. destruct (Rtotal_order x y) as [L|[E|L]]; auto; [subst; lra|apply cube_lt in L; lra].
Qed.
Lemma cube_le_inv x y : x^3 <= y^3 -> x <= y.
Proof.
  intros [H|H]; [left; apply cube_lt_inv, H|right; apply cube_inj, H].
Qed.
Lemma cbrt_eq x y : 0 <= x -> y^3 = x -> cbrt x = y.
Proof. intros H E. apply cube_inj. rewrite cbrt_cube by assumption. auto. Qed.
Lemma fpow_cbrt m x : 0 <= x -> fpow m (Fin x) (Fin (1/3)) = Fin (cbrt x).
Proof.
  intros H. unfold cbrt. destruct (Rlt_dec 0 x) as [P|P]; [apply fpow_fin, P|].
  replace x with 0 by lra. apply fpow_zero. lra.
Qed.
Lemma cbrt_lt x y : 0 <= x < y -> cbrt x < cbrt y.
Proof. intros H. apply cube_lt_inv. rewrite !cbrt_cube by lra. lra. Qed.
Lemma cbrt_le x y : 0 <= x <= y -> cbrt x <= cbrt y.
Proof. intros H. apply cube_le_inv. rewrite !cbrt_cube by lra. lra. Qed.

(** ** Thomas-Stieber *)
Lemma TS_fin a b v :
  GM_ThomasStieber (Fin a) (Fin b) (Fin v) =
  Ret (Fin (Rmax (a - (1 - b) * v) (b * v)), Fin ((b - a) * v + a)).
Proof. unfold GM_ThomasStieber. fls. reflexivity. Qed.
Lemma TS_order a b v : 0 <= a <= 1 -> 0 <= b <= 1 -> 0 <= v <= 1 ->
  Rmax (a - (1 - b) * v) (b * v) <= (b - a) * v + a.
Proof. intros. apply Rmax_lub; nra. Qed.
Lemma TS_bottom a b v : 0 <= a <= 1 -> 0 <= b <= 1 -> 0 <= v <= 1 ->
  a * b <= Rmax (a - (1 - b) * v) (b * v).
Proof.
  intros. destruct (Rle_dec v a).
  - eapply Rle_trans; [|apply Rmax_l]. nra.
  - eapply Rle_trans; [|apply Rmax_r]. nra.
Qed.
Lemma TS_vertex a b : Rmax (a - (1 - b) * a) (b * a) = a * b.
Proof. replace (a - (1 - b) * a) with (b * a) by ring. rewrite Rmax_left; lra. Qed.

(** ** Poisson's ratio of the grain *)
Section Nu.
Variables (K0 G0 : R).
Hypotheses (HK : 0 < K0) (HG : 0 < G0).
Lemma nu_den : 0 < 6 * K0 + 2 * G0.
Proof. lra. Qed.
Lemma nu_1 : 1 - poisson K0 G0 = (3 * K0 + 4 * G0) / (6 * K0 + 2 * G0).
Proof. unfold poisson. field. lra. Qed.
Lemma nu_2 : 2 - poisson K0 G0 = (9 * K0 + 6 * G0) / (6 * K0 + 2 * G0).
Proof. unfold poisson. field. lra. Qed.
Lemma nu_1p : 0 < 1 - poisson K0 G0.
Proof. rewrite nu_1. apply Rdiv_lt_0_compat; lra. Qed.
Lemma nu_2p : 0 < 2 - poisson K0 G0.
Proof. rewrite nu_2. apply Rdiv_lt_0_compat; lra. Qed.
Lemma nu_half : poisson K0 G0 < 1/2.
Proof. unfold poisson. apply div_lt_iff; lra. Qed.
Lemma nu_m1 : -1 < poisson K0 G0.
Proof. unfold poisson. apply lt_div_iff; lra. Qed.
End Nu.

(** ** Hertz-Mindlin *)
Section HM.
Variables (m : mode) (K0 G0 phic Cn : R).
Hypotheses (HK : 0 < K0) (HG : 0 < G0) (Hp : 0 <= phic < 1) (HC : 0 < Cn).

Lemma K3_pos P : 0 < P -> 0 < hertz_K3 K0 G0 phic Cn P.
Proof.
  intros. unfold hertz_K3. assert (N := nu_1p K0 G0 HK HG). assert (0 < 1 - phic) by lra.
  assert (0 < PI) by apply PI_RGT_0. pos.
Qed.
Lemma K3_0 : hertz_K3 K0 G0 phic Cn 0 = 0.
Proof. unfold hertz_K3, Rdiv. ring. Qed.
Lemma K3_nonneg P : 0 <= P -> 0 <= hertz_K3 K0 G0 phic Cn P.
Proof. intros [H|<-]; [left; apply K3_pos, H|rewrite K3_0; lra]. Qed.

Lemma hertzmindlin_fin sg f : 0 <= sg ->
  GM_hertzmindlin m (Fin K0) (Fin G0) (Fin phic) (Fin Cn) (Fin sg) (Fin f) =
  let K := cbrt (hertz_K3 K0 G0 phic Cn (sg / 1000)) in Ret (Fin K, Fin (hertz_GK K0 G0 f * K)).
Proof.
  intros Hs. unfold GM_hertzmindlin.
  assert (D := nu_den K0 G0 HK HG). assert (N1 := nu_1p K0 G0 HK HG). assert (N2 := nu_2p K0 G0 HK HG).
  assert (PP : 0 < PI) by apply PI_RGT_0.
  assert (A := K3_nonneg (sg / 1000) ltac:(lra)).
  repeat (first [fl1 | rewrite fdiv_fin by lra]; cbv beta zeta).
  change ((3 * K0 - 2 * G0) / (6 * K0 + 2 * G0)) with (poisson K0 G0).
  assert (X : 18 * PI^2 * (1 - poisson K0 G0)^2 <> 0) by pos.
  assert (Y : 2 * PI^2 * (1 - poisson K0 G0)^2 <> 0) by pos.
  repeat (first [fl1 | rewrite fdiv_fin by (assumption || lra)]; cbv beta zeta).
  replace (sg / 1000 * (Cn ^ 2 * (1 - phic) ^ 2 * G0 ^ 2) / (18 * PI ^ 2 * (1 - poisson K0 G0) ^ 2))
    with (hertz_K3 K0 G0 phic Cn (sg / 1000)) by (unfold hertz_K3; field; repeat split; lra).
  replace (sg / 1000 * (3 * Cn ^ 2 * (1 - phic) ^ 2 * G0 ^ 2) / (2 * PI ^ 2 * (1 - poisson K0 G0) ^ 2))
    with (27 * hertz_K3 K0 G0 phic Cn (sg / 1000)) by (unfold hertz_K3; field; repeat split; lra).
  rewrite (fpow_cbrt m (hertz_K3 K0 G0 phic Cn (sg / 1000))), fpow_cbrt by lra.
  rewrite (cbrt_eq (27 * _) (3 * cbrt (hertz_K3 K0 G0 phic Cn (sg / 1000)))).
  2: lra.
  2: rewrite Rpow_mult_distr, cbrt_cube by lra; ring.
  repeat (first [fl1 | rewrite fdiv_fin by (assumption || lra)]; cbv beta zeta).
  reteq. unfold hertz_GK. cbv zeta. field. lra.
Qed.

Lemma GK_pos f : 0 <= f <= 1 -> 0 < hertz_GK K0 G0 f.
Proof.
  intros Hf. unfold hertz_GK. cbv zeta. assert (N2 := nu_2p K0 G0 HK HG). assert (H := nu_half K0 G0 HK HG).
  assert (0 < (5 - 4 * poisson K0 G0) / (2 - poisson K0 G0)) by (apply Rdiv_lt_0_compat; lra).
  assert (0 <= f * ((5 - 4 * poisson K0 G0) / (2 - poisson K0 G0))) by (apply Rmult_le_pos; lra).
  destruct (Req_EM_T f 0) as [->|]; [lra|].
  assert (0 < f * ((5 - 4 * poisson K0 G0) / (2 - poisson K0 G0))) by (apply Rmult_lt_0_compat; lra). lra.
Qed.
Lemma rough_gt1 : 1 < (5 - 4 * poisson K0 G0) / (2 - poisson K0 G0).
Proof.
  assert (N2 := nu_2p K0 G0 HK HG). assert (H := nu_half K0 G0 HK HG). apply lt_div_iff; lra.
Qed.
Lemma GK_mono f f' : f < f' -> hertz_GK K0 G0 f < hertz_GK K0 G0 f'.
Proof.
  intros Hf. unfold hertz_GK. cbv zeta. assert (R1 := rough_gt1).
  set (q := (5 - 4 * poisson K0 G0) / (2 - poisson K0 G0)) in *. nra.
Qed.

Lemma walton_hm sg f : 0 <= sg ->
  GM_Walton m (Fin K0) (Fin G0) (Fin phic) (Fin Cn) (Fin sg) (Fin f) =
  GM_hertzmindlin m (Fin K0) (Fin G0) (Fin phic) (Fin Cn) (Fin sg) (Fin f).
Proof.
  intros Hs. rewrite hertzmindlin_fin by assumption. cbv zeta. unfold GM_Walton.
  assert (D := nu_den K0 G0 HK HG). assert (N1 := nu_1p K0 G0 HK HG). assert (N2 := nu_2p K0 G0 HK HG).
  assert (PP : 0 < PI) by apply PI_RGT_0.
  assert (A := K3_nonneg (sg / 1000) ltac:(lra)).
  assert (E : G0 + (K0 - 2 * G0 / 3) <> 0) by lra. assert (F : 4 * PI <> 0) by lra.
  repeat (first [fl1 | rewrite fdiv_fin by (assumption || lra)]; cbv beta zeta).
  change ((3 * K0 - 2 * G0) / (6 * K0 + 2 * G0)) with (poisson K0 G0).
  assert (B : 1 / (4 * PI) * (1 / G0 + 1 / (G0 + (K0 - 2 * G0 / 3))) = (1 - poisson K0 G0) / (2 * PI * G0)).
  { unfold poisson. field. repeat split; lra. }
  rewrite B.
  assert (X : PI^4 * ((1 - poisson K0 G0) / (2 * PI * G0))^2 <> 0).
  { apply Rgt_not_eq. unfold Rgt. apply Rmult_lt_0_compat; [pos|]. apply pow_lt, Rdiv_lt_0_compat; pos. }
  repeat (first [fl1 | rewrite fdiv_fin by (assumption || lra)]; cbv beta zeta).
  replace (3 * (1 - phic) ^ 2 * Cn ^ 2 * (sg / 1000) / (PI ^ 4 * ((1 - poisson K0 G0) / (2 * PI * G0)) ^ 2))
    with (216 * hertz_K3 K0 G0 phic Cn (sg / 1000)) by (unfold hertz_K3; field; repeat split; lra).
  rewrite fpow_cbrt by lra.
  rewrite (cbrt_eq (216 * _) (6 * cbrt (hertz_K3 K0 G0 phic Cn (sg / 1000)))).
  2: lra.
  2: rewrite Rpow_mult_distr, cbrt_cube by lra; ring.
  repeat (first [fl1 | rewrite fdiv_fin by (assumption || lra)]; cbv beta zeta).
  change ((3 * K0 - 2 * G0) / (6 * K0 + 2 * G0)) with (poisson K0 G0).
  repeat (first [fl1 | rewrite fdiv_fin by (assumption || lra)]; cbv beta zeta).
  reteq; [field|]. unfold hertz_GK. cbv zeta. field. lra.
Qed.
End HM.

(** Behaviour in the parameters. *)
Lemma K3_scale K0 G0 phic Cn P l : hertz_K3 K0 G0 phic Cn (l * P) = l * hertz_K3 K0 G0 phic Cn P.
Proof. unfold hertz_K3, Rdiv. ring. Qed.
Lemma K3_mono K0 G0 phic phic' Cn Cn' P P' : 0 < K0 -> 0 < G0 -> 0 <= phic' <= phic -> phic < 1 ->
  0 < Cn <= Cn' -> 0 <= P <= P' -> hertz_K3 K0 G0 phic Cn P <= hertz_K3 K0 G0 phic' Cn' P'.
Proof.
  intros HK HG Hp Hp1 HC HP. unfold hertz_K3. assert (N1 := nu_1p K0 G0 HK HG).
  assert (PP : 0 < PI) by apply PI_RGT_0.
  unfold Rdiv. apply Rmult_le_compat_r; [left; apply Rinv_0_lt_compat; pos|].
  assert (Cn^2 <= Cn'^2) by (apply pow_incr; lra).
  assert ((1-phic)^2 <= (1-phic')^2) by (apply pow_incr; lra).
  assert (0 <= Cn^2) by apply pow2_ge_0. assert (0 <= (1-phic)^2) by apply pow2_ge_0. assert (0 <= G0^2) by apply pow2_ge_0.
  assert (0 <= Cn'^2) by apply pow2_ge_0. assert (0 <= (1-phic')^2) by apply pow2_ge_0.
  apply Rmult_le_compat; try lra; [apply Rmult_le_pos; [apply Rmult_le_pos|]; lra|].
  apply Rmult_le_compat_r; [lra|]. apply Rmult_le_compat; lra.
Qed.
Lemma cbrt_scale l x : 0 <= l -> 0 <= x -> cbrt (l^3 * x) = l * cbrt x.
Proof.
  intros. apply cbrt_eq; [apply Rmult_le_pos; auto; apply pow_le; auto|].
  rewrite Rpow_mult_distr, cbrt_cube by assumption. reflexivity.
Qed.

(** ** Walpole mixtures as the code writes them *)
Lemma wal_sum t A B : 0 <= t <= 1 -> 0 < A -> 0 < B -> 0 < t / A + (1 - t) / B.
Proof.
  intros Ht HA HB. destruct (Req_EM_T t 0) as [->|N].
  - unfold Rdiv. rewrite Rmult_0_l, Rplus_0_l, Rminus_0_r, Rmult_1_l. pos.
  - assert (0 < t / A) by (apply Rdiv_lt_0_compat; lra).
    assert (0 <= (1 - t) / B) by (apply Rmult_le_pos; [lra|left; pos]). lra.
Qed.
Section Wal.
Variable m : mode.
Local Infix "/" := (fdiv m) : fl_scope.
(** [-z + (t/(a+z) + (1-t)/(b+z))**-1]. *)
Lemma wal_K t a b g : 0 <= t <= 1 -> 0 < a + 4/3 * g -> 0 < b + 4/3 * g ->
  (#(-4) / #3 * Fin g + #1 / ((Fin t / (Fin a + #4 / #3 * Fin g)) + ((#1 - Fin t) / (Fin b + #4 / #3 * Fin g))))%fl
  = Fin (walpole (zK g) t a b).
Proof.
  intros Ht Ha Hb. assert (S := wal_sum t _ _ Ht Ha Hb).
  repeat (first [fl1 | rewrite fdiv_fin by lra]; cbv beta zeta). apply f_equal. unfold walpole, zK.
  set (D := t / _ + _) in *. field. lra.
Qed.
Lemma wal_G t a b z : 0 <= t <= 1 -> 0 < a + z -> 0 < b + z ->
  (- Fin z + #1 / (Fin t / (Fin a + Fin z) + ((#1 - Fin t) / (Fin b + Fin z))))%fl = Fin (walpole z t a b).
Proof.
  intros Ht Ha Hb. assert (S := wal_sum t _ _ Ht Ha Hb).
  repeat (first [fl1 | rewrite fdiv_fin by lra]; cbv beta zeta). apply f_equal. unfold walpole.
  unfold Rdiv at 1. rewrite Rmult_1_l. ring.
Qed.
Lemma wal_K' t a b g : 0 <= t <= 1 -> 0 < a + 4/3 * g -> 0 < b + 4/3 * g ->
  (#1 / (Fin t / (Fin a + #4 * Fin g / #3) + (#1 - Fin t) / (Fin b + #4 * Fin g / #3)) - #4 * Fin g / #3)%fl
  = Fin (walpole (zK g) t a b).
Proof.
  intros Ht Ha Hb. assert (S := wal_sum t _ _ Ht Ha Hb).
  replace (4/3*g) with (4 * g / 3) in * by field.
  repeat (first [fl1 | rewrite fdiv_fin by lra]; cbv beta zeta). apply f_equal. unfold walpole, zK.
  replace (4/3*g) with (4 * g / 3) by field. unfold Rdiv at 1. rewrite Rmult_1_l. reflexivity.
Qed.
Lemma wal_G' t a b z : 0 <= t <= 1 -> 0 < a + z -> 0 < b + z ->
  (#1 / (Fin t / (Fin a + Fin z) + (#1 - Fin t) / (Fin b + Fin z)) - Fin z)%fl = Fin (walpole z t a b).
Proof.
  intros Ht Ha Hb. assert (S := wal_sum t _ _ Ht Ha Hb).
  repeat (first [fl1 | rewrite fdiv_fin by lra]; cbv beta zeta). apply f_equal. unfold walpole.
  unfold Rdiv at 1. rewrite Rmult_1_l. ring.
Qed.
Lemma zG_code g k : 0 < k + 2 * g ->
  (Fin g / #6 * ((#9 * Fin k + #8 * Fin g) / (Fin k + #2 * Fin g)))%fl = Fin (zG k g).
Proof. intros. repeat (first [fl1 | rewrite fdiv_fin by lra]; cbv beta zeta). reflexivity. Qed.
Lemma zG_code' g k : 0 < k + 2 * g ->
  (Fin g / #6 * (#9 * Fin k + #8 * Fin g) / (Fin k + #2 * Fin g))%fl = Fin (zG k g).
Proof.
  intros. repeat (first [fl1 | rewrite fdiv_fin by lra]; cbv beta zeta). apply f_equal.
  unfold zG, Rdiv. ring.
Qed.
(** The common last step of soft sand and of the patchy-cement models. *)
Lemma final_fin Kp Gp K0 G0 phi phic : 0 < Kp -> 0 < Gp -> 0 < K0 -> 0 < G0 -> 0 <= phi <= phic -> 0 < phic ->
  GM_pcm_final m (Fin Kp) (Fin Gp) (Fin K0) (Fin G0) (Fin phi) (Fin phic) =
  Ret (Fin (walpole (zK Gp) (phi / phic) Kp K0), Fin (walpole (zG Kp Gp) (phi / phic) Gp G0)).
Proof.
  intros H1 H2 H3 H4 Hp Hc. unfold GM_pcm_final.
  assert (T : 0 <= phi / phic <= 1) by (split; [apply le_div_iff|apply div_le_iff]; lra).
  assert (Z := zG_pos Kp Gp H1 H2).
  rewrite !(fdiv_fin m phi phic) by lra.
  rewrite wal_K by lra. rewrite zG_code by lra. rewrite !bind_fin. rewrite wal_G by lra. rewrite bind_fin. reflexivity.
Qed.
End Wal.

Section Sand.
Variables (m : mode) (K0 G0 phic Cn : R).
Hypotheses (HK : 0 < K0) (HG : 0 < G0) (Hp : 0 < phic < 1) (HC : 0 < Cn).
Lemma softsand_fin phi sg f : 0 <= phi <= phic -> 0 < sg -> 0 <= f <= 1 ->
  GM_softsand m (Fin K0) (Fin G0) (Fin phi) (Fin phic) (Fin Cn) (Fin sg) (Fin f) =
  let K := cbrt (hertz_K3 K0 G0 phic Cn (sg / 1000)) in let G := hertz_GK K0 G0 f * K in
  Ret (Fin (walpole (zK G) (phi / phic) K K0), Fin (walpole (zG K G) (phi / phic) G G0)).
Proof.
  intros Hphi Hs Hf. unfold GM_softsand. rewrite hertzmindlin_fin by lra. cbv zeta. rewrite call_ret.
  set (K := cbrt _). set (G := _ * K).
  assert (PK : 0 < K) by (apply cbrt_pos, K3_pos; lra).
  assert (PG : 0 < G) by (apply Rmult_lt_0_compat; [apply GK_pos; lra|assumption]).
  exact (final_fin m K G K0 G0 phi phic PK PG HK HG Hphi ltac:(lra)).
Qed.
Lemma stiffsand_fin phi sg f : 0 <= phi <= phic -> 0 <= sg -> 0 <= f <= 1 ->
  GM_stiffsand m (Fin K0) (Fin G0) (Fin phi) (Fin phic) (Fin Cn) (Fin sg) (Fin f) =
  let K := cbrt (hertz_K3 K0 G0 phic Cn (sg / 1000)) in let G := hertz_GK K0 G0 f * K in
  Ret (Fin (walpole (zK G0) (phi / phic) K K0), Fin (walpole (zG K0 G0) (phi / phic) G G0)).
Proof.
  intros Hphi Hs Hf. unfold GM_stiffsand. rewrite hertzmindlin_fin by lra. cbv zeta. rewrite call_ret.
  set (K := cbrt _). set (G := _ * K).
  assert (PK : 0 <= K) by apply cbrt_nonneg.
  assert (PG : 0 <= G) by (apply Rmult_le_pos; [left; apply GK_pos; lra|assumption]).
  assert (T : 0 <= phi / phic <= 1) by (split; [apply le_div_iff|apply div_le_iff]; lra).
  assert (Z := zG_pos K0 G0 HK HG).
  rewrite !(fdiv_fin m phi phic) by lra.
  rewrite wal_K by lra. rewrite zG_code by lra. rewrite !bind_fin. rewrite wal_G by lra. rewrite bind_fin. reflexivity.
Qed.
End Sand.

(** Shale mixing. *)
Lemma silty_shale_fin m C Kq Gq Ksh Gsh : 0 <= C <= 1 -> 0 < Kq -> 0 < Gq -> 0 < Ksh -> 0 < Gsh ->
  GM_silty_shale m (Fin C) (Fin Kq) (Fin Gq) (Fin Ksh) (Fin Gsh) =
  Ret (Fin (/ (C / (Ksh + 4/3 * Gsh) + (1 - C) / (Kq + 4/3 * Gq)) - 4/3 * Gsh), Fin (walpole (zG Ksh Gsh) C Gsh Gq)).
Proof.
  intros HC H1 H2 H3 H4. unfold GM_silty_shale. assert (Z := zG_pos Ksh Gsh H3 H4).
  rewrite zG_code' by lra.
  assert (S := wal_sum C (Ksh + 4 * Gsh / 3) (Kq + 4 * Gq / 3) HC ltac:(lra) ltac:(lra)).
  repeat (first [fl1 | rewrite fdiv_fin by lra]; cbv beta zeta).
  assert (S2 := wal_sum C (Gsh + zG Ksh Gsh) (Gq + zG Ksh Gsh) HC ltac:(lra) ltac:(lra)).
  rewrite fdiv_fin by lra. rewrite fsub_fin. cbv beta. rewrite bind_fin.
  unfold walpole. reteq.
  - replace (4/3*Gsh) with (4 * Gsh / 3) by field. replace (4/3*Gq) with (4 * Gq / 3) by field.
    unfold Rdiv at 1. rewrite Rmult_1_l. reflexivity.
  - unfold Rdiv at 1. rewrite Rmult_1_l. reflexivity.
Qed.
Lemma shaly_sand_fin m phis C Kss Gss Kcc Gcc : 0 < phis -> 0 <= C <= phis -> 0 < Kss -> 0 < Gss -> 0 < Kcc -> 0 < Gcc ->
  GM_shaly_sand m (Fin phis) (Fin C) (Fin Kss) (Fin Gss) (Fin Kcc) (Fin Gcc) =
  Ret (Fin (walpole (zK Gss) (C / phis) Kcc Kss), Fin (walpole (zG Kss Gss) (C / phis) Gcc Gss)).
Proof.
  intros HP HC H1 H2 H3 H4. unfold GM_shaly_sand. assert (Z := zG_pos Kss Gss H1 H2).
  assert (T : 0 <= C / phis <= 1) by (split; [apply le_div_iff|apply div_le_iff]; lra).
  rewrite zG_code' by lra. rewrite !(fdiv_fin m C phis) by lra.
  assert (S := wal_sum (C / phis) (Kcc + 4 * Gss / 3) (Kss + 4 * Gss / 3) T ltac:(lra) ltac:(lra)).
  rewrite Rplus_comm in S.
  repeat (first [fl1 | rewrite fdiv_fin by lra]; cbv beta zeta).
  assert (S2 := wal_sum (C / phis) (Gcc + zG Kss Gss) (Gss + zG Kss Gss) T ltac:(lra) ltac:(lra)).
  rewrite Rplus_comm in S2.
  rewrite fdiv_fin by lra. rewrite fsub_fin. cbv beta. rewrite bind_fin.
  unfold walpole, zK. reteq.
  - replace (4/3*Gss) with (4 * Gss / 3) by field. unfold Rdiv at 1. rewrite Rmult_1_l, (Rplus_comm (_ / (Kss + _))). reflexivity.
  - unfold Rdiv at 1. rewrite Rmult_1_l, (Rplus_comm (_ / (Gss + _))). reflexivity.
Qed.
