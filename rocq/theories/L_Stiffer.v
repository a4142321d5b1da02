(** * Stiffer constituents make a stiffer rock: monotonicity of the effective moduli in the moduli of the constituents. *)
From Verif Require Import Fl Cx M_Utils M_EM M_Anis M_GM M_Fluid Spec Spec2 Spec3 RealLemmas L_Utils L_EM1 L_EM5 L_EM6 L_GM1 L_GM2 L_GM4 L_Fluid1 L_Fluid7.
Open Scope R_scope.

(** ** Hashin-Shtrikman, Mori-Tanaka, Swiss cheese, self-consistent *)
Lemma lastK_le t Kp Gp Kp' Gp' K0 K0' : 0 <= t <= 1 -> 0 <= Kp <= Kp' -> 0 < Gp <= Gp' -> 0 < K0 <= K0' ->
  walpole (zK Gp) t Kp K0 <= walpole (zK Gp') t Kp' K0'.
Proof.
  intros Ht HK HG H0. assert (A := zK_pos Gp ltac:(lra)). assert (zK Gp <= zK Gp') by (unfold zK; lra).
  apply Rle_trans with (walpole (zK Gp') t Kp K0); [apply walpole_mono_z; lra|apply walpole_mono; lra].
Qed.
Lemma wal_le t z z' a b a' b' : 0 <= t <= 1 -> 0 < z <= z' -> 0 <= a <= a' -> 0 <= b <= b' ->
  walpole z t a b <= walpole z' t a' b'.
Proof.
  intros. apply Rle_trans with (walpole z' t a b); [apply walpole_mono_z; lra|apply walpole_mono; lra].
Qed.
Lemma zK_le G G' : 0 < G <= G' -> 0 < zK G <= zK G'.
Proof. intros. split; [apply zK_pos; lra|unfold zK; lra]. Qed.
Lemma zG_le K K' G G' : 0 < K <= K' -> 0 < G <= G' -> 0 < zG K G <= zG K' G'.
Proof. intros. split; [apply zG_pos; lra|apply zG_mono; lra]. Qed.

Lemma HS_le m f b K1 K2 G1 G2 K1' K2' G1' G2' : 0 < K1 <= K1' -> 0 < K2 <= K2' -> 0 < G1 <= G1' -> 0 < G2 <= G2' -> 0 <= f <= 1 ->
  K1 <> K2 -> G1 <> G2 -> K1' <> K2' -> G1' <> G2' -> exists K G K' G',
  EM_HS m (Fin f) (Fin K1) (Fin K2) (Fin G1) (Fin G2) b = Ret (Fin K, Fin G) /\
  EM_HS m (Fin f) (Fin K1') (Fin K2') (Fin G1') (Fin G2') b = Ret (Fin K', Fin G') /\ K <= K' /\ G <= G'.
Proof.
  intros. destruct (HS_walpole m f K1 K2 G1 G2) as (U & L); try lra. destruct (HS_walpole m f K1' K2' G1' G2') as (U' & L'); try lra.
  destruct (String.eqb_spec b "upper") as [->|N].
  - rewrite U, U'. do 4 eexists. split; [reflexivity|split; [reflexivity|]].
    split; apply wal_le; try lra; [apply zK_le|apply zG_le]; lra.
  - rewrite L, L' by auto. do 4 eexists. split; [reflexivity|split; [reflexivity|]].
    split; apply wal_le; try lra; [apply zK_le|apply zG_le]; lra.
Qed.
Lemma MT_le m f Km Gm K1 G1 K2 G2 Km' Gm' K1' G1' K2' G2' : 0 < Km <= Km' -> 0 < Gm <= Gm' -> 0 <= K1 <= K1' -> 0 <= K2 <= K2' ->
  0 <= G1 <= G1' -> 0 <= G2 <= G2' -> 0 <= f <= 1 -> exists K G K' G',
  EM_MT_average m (Fin f) (Fin Km) (Fin Gm) (Fin K1) (Fin G1) (Fin K2) (Fin G2) = Ret (Fin K, Fin G) /\
  EM_MT_average m (Fin f) (Fin Km') (Fin Gm') (Fin K1') (Fin G1') (Fin K2') (Fin G2') = Ret (Fin K', Fin G') /\ K <= K' /\ G <= G'.
Proof.
  intros. rewrite !MT_walpole by lra. do 4 eexists. split; [reflexivity|split; [reflexivity|]].
  split; apply wal_le; try lra; [apply zK_le|apply zG_le]; lra.
Qed.
Lemma kst_le_s Ks Ks' phi K G : 0 < Ks <= Ks' -> 0 <= phi -> 0 < K -> 0 < G -> kst Ks phi K G <= kst Ks' phi K G.
Proof.
  intros. apply inv_le; [apply kst_den; lra|]. assert (1 / Ks' <= 1 / Ks) by (apply inv_le; lra). lra.
Qed.
Lemma gst_le_s Gs Gs' phi K G : 0 < Gs <= Gs' -> 0 <= phi -> 0 < K -> 0 < G -> gst Gs phi K G <= gst Gs' phi K G.
Proof.
  intros. apply inv_le; [apply gst_den; lra|]. assert (1 / Gs' <= 1 / Gs) by (apply inv_le; lra). lra.
Qed.
Lemma kst_all Ks Ks' phi phi' K K' G G' : 0 < Ks <= Ks' -> 0 <= phi' <= phi -> 0 < K <= K' -> 0 < G <= G' -> kst Ks phi K G <= kst Ks' phi' K' G'.
Proof. intros. apply Rle_trans with (kst Ks phi' K' G'); [apply kst_mono; lra|apply kst_le_s; lra]. Qed.
Lemma gst_all Gs Gs' phi phi' K K' G G' : 0 < Gs <= Gs' -> 0 <= phi' <= phi -> 0 < K <= K' -> 0 < G <= G' -> gst Gs phi K G <= gst Gs' phi' K' G'.
Proof. intros. apply Rle_trans with (gst Gs phi' K' G'); [apply gst_mono; lra|apply gst_le_s; lra]. Qed.
Lemma sc_all Ks Ks' Gs Gs' phi phi' n : 0 < Ks <= Ks' -> 0 < Gs <= Gs' -> 0 <= phi' <= phi ->
  fst (sc Ks Gs phi n) <= fst (sc Ks' Gs' phi' n) /\ snd (sc Ks Gs phi n) <= snd (sc Ks' Gs' phi' n).
Proof.
  intros HK HG Hp. induction n as [|n (I1 & I2)]; [cbn; lra|]. rewrite !sc_step. cbn [fst snd].
  destruct (sc_pos Ks Gs ltac:(lra) ltac:(lra) phi n ltac:(lra)) as (A & B).
  assert (Q : kst Ks phi (fst (sc Ks Gs phi n)) (snd (sc Ks Gs phi n)) <= kst Ks' phi' (fst (sc Ks' Gs' phi' n)) (snd (sc Ks' Gs' phi' n)))
    by (apply kst_all; lra).
  split; [exact Q|]. apply gst_all; try lra. split; [|exact Q]. apply kst_pos; lra.
Qed.
Lemma SC_le m Ks Ks' Gs Gs' phi phi' n : 0 < Ks <= Ks' -> 0 < Gs <= Gs' -> 0 <= phi' <= phi -> exists K G K' G',
  EM_SC m (Fin phi) (Fin Ks) (Fin Gs) (Z.of_nat n) = Ret (Fin K, Fin G) /\
  EM_SC m (Fin phi') (Fin Ks') (Fin Gs') (Z.of_nat n) = Ret (Fin K', Fin G') /\ K <= K' /\ G <= G'.
Proof.
  intros. rewrite !SC_eval by lra. do 4 eexists. split; [reflexivity|split; [reflexivity|]]. apply sc_all; lra.
Qed.
Lemma Swiss_le m Ks Ks' Gs Gs' phi phi' : 0 < Ks <= Ks' -> 0 < Gs <= Gs' -> 0 <= phi' <= phi -> exists K G K' G',
  EM_Swiss_cheese m (Fin Ks) (Fin Gs) (Fin phi) = Ret (Fin K, Fin G) /\
  EM_Swiss_cheese m (Fin Ks') (Fin Gs') (Fin phi') = Ret (Fin K', Fin G') /\ K <= K' /\ G <= G'.
Proof.
  intros. rewrite !Swiss_eval by lra. do 4 eexists. split; [reflexivity|split; [reflexivity|]].
  split; [apply kst_all|apply gst_all]; lra.
Qed.

(** ** Hertz-Mindlin *)
Definition xnu (K0 G0 : R) : R := 1 - poisson K0 G0.
Lemma xnu_lo K0 G0 : 0 < K0 -> 0 < G0 -> 1/2 < xnu K0 G0.
Proof. intros. unfold xnu. assert (H1 := nu_half K0 G0 ltac:(lra) ltac:(lra)). lra. Qed.
Lemma xnu_K K0 K0' G0 : 0 < K0 <= K0' -> 0 < G0 -> xnu K0' G0 <= xnu K0 G0.
Proof.
  intros. unfold xnu. rewrite !nu_1 by lra. apply div_le_div; try lra.
  assert (0 <= (K0' - K0) * G0) by (apply Rmult_le_pos; lra). lra.
Qed.
Lemma xnu_G K0 G0 G0' : 0 < K0 -> 0 < G0 <= G0' -> xnu K0 G0 <= xnu K0 G0'.
Proof.
  intros. unfold xnu. rewrite !nu_1 by lra. apply div_le_div; try lra.
  assert (0 <= (G0' - G0) * K0) by (apply Rmult_le_pos; lra). lra.
Qed.
Lemma Gx_G K0 G0 G0' : 0 < K0 -> 0 < G0 <= G0' -> G0 / xnu K0 G0 <= G0' / xnu K0 G0'.
Proof.
  intros. unfold xnu. rewrite !nu_1 by lra.
  replace (G0 / _) with (G0 * (6 * K0 + 2 * G0) / (3 * K0 + 4 * G0)) by (field; lra).
  replace (G0' / _) with (G0' * (6 * K0 + 2 * G0') / (3 * K0 + 4 * G0')) by (field; lra).
  apply div_le_div; try lra.
  assert (0 <= (G0' - G0) * (18 * K0^2 + 6 * K0 * (G0 + G0') + 8 * (G0 * G0'))).
  { apply Rmult_le_pos; [lra|]. assert (0 <= K0 * (G0 + G0')) by (apply Rmult_le_pos; lra).
    assert (0 <= G0 * G0') by (apply Rmult_le_pos; lra). assert (0 <= K0^2) by apply pow2_ge_0. lra. }
  lra.
Qed.
Definition rgh (f x : R) : R := (1 + (1 + 3 * f) * x) / (1 + x).
Lemma GK_rgh K0 G0 f : 0 < K0 -> 0 < G0 -> hertz_GK K0 G0 f = 3/5 * rgh f (xnu K0 G0).
Proof.
  intros. assert (A := xnu_lo K0 G0 H H0). unfold hertz_GK, rgh. cbv zeta.
  replace (poisson K0 G0) with (1 - xnu K0 G0) by (unfold xnu; ring). set (x := xnu K0 G0) in *. clearbody x. field. lra.
Qed.
Lemma rgh_pos f x : 0 <= f -> 0 < x -> 0 < rgh f x.
Proof. intros. unfold rgh. assert (0 <= f * x) by (apply Rmult_le_pos; lra). apply Rdiv_lt_0_compat; lra. Qed.
Lemma rgh_x f x y : 0 <= f -> 0 < x <= y -> rgh f x <= rgh f y.
Proof.
  intros. unfold rgh. assert (0 <= f * (y - x)) by (apply Rmult_le_pos; lra). apply div_le_div; lra || nra.
Qed.
Lemma rgh_f f f' x : f <= f' -> 0 < x -> rgh f x <= rgh f' x.
Proof.
  intros. unfold rgh. apply Rmult_le_compat_r; [left; apply Rinv_0_lt_compat; lra|]. nra.
Qed.
Lemma rgh_sq f x y : 0 <= f <= 1 -> 1/2 <= x -> x <= y -> rgh f y ^ 2 * x <= rgh f x ^ 2 * y.
Proof.
  intros Hf Hx Hy. set (A := (1 + (1 + 3*f) * x) * (1 + y)). set (B := (1 + (1 + 3*f) * y) * (1 + x)).
  assert (AB : A <= B). { assert (E : B - A = 3 * f * (y - x)) by (unfold A, B; ring).
    assert (0 <= f * (y - x)) by (apply Rmult_le_pos; lra). lra. }
  assert (B1 : 2 * (3 * f) * y <= B).
  { unfold B. assert (0 <= f * y) by (apply Rmult_le_pos; lra). 
    assert (y * f <= y * 1) by (apply Rmult_le_compat_l; lra).
    assert (0 <= (1 + (1 + 3 * f) * y) * (x - 1/2)) by (apply Rmult_le_pos; lra).
    lra. }
  assert (B0 : 0 < B). { unfold B. assert (0 <= f * y) by (apply Rmult_le_pos; lra). apply Rmult_lt_0_compat; lra. }
  assert (A0 : 0 < A). { unfold A. assert (0 <= f * x) by (apply Rmult_le_pos; lra). apply Rmult_lt_0_compat; lra. }
  assert (E : A^2 * y - B^2 * x = (y - x) * (B^2 - 3 * f * (A + B) * y)) by (unfold A, B; ring).
  assert (P : 0 <= (y - x) * (B^2 - 3 * f * (A + B) * y)).
  { apply Rmult_le_pos; [lra|]. assert (0 <= 3 * f * y) by (assert (0 <= f * y) by (apply Rmult_le_pos; lra); lra).
    assert ((3 * f * y) * (A + B) <= (3 * f * y) * (2 * B)) by (apply Rmult_le_compat_l; lra).
    assert ((2 * (3 * f) * y) * B <= B * B) by (apply Rmult_le_compat_r; lra). nra. }
  unfold rgh. 
  replace (((1 + (1 + 3 * f) * y) / (1 + y)) ^ 2 * x) with (B^2 * x / ((1 + x)^2 * (1 + y)^2)) by (unfold B; field; lra).
  replace (((1 + (1 + 3 * f) * x) / (1 + x)) ^ 2 * y) with (A^2 * y / ((1 + x)^2 * (1 + y)^2)) by (unfold A; field; lra).
  apply Rmult_le_compat_r; [|lra]. left. apply Rinv_0_lt_compat. apply Rmult_lt_0_compat; apply pow_lt; lra.
Qed.
Lemma K3_x K0 G0 phic Cn P : 0 < K0 -> 0 < G0 -> hertz_K3 K0 G0 phic Cn P = Cn^2 * (1 - phic)^2 * P / (18 * PI^2) * (G0 / xnu K0 G0)^2.
Proof.
  intros. assert (A := xnu_lo K0 G0 H H0). unfold hertz_K3. fold (xnu K0 G0). assert (X := PI_RGT_0). set (x := xnu K0 G0) in *. clearbody x. field. lra.
Qed.
Definition hmK K0 G0 phic Cn sg := cbrt (hertz_K3 K0 G0 phic Cn (sg / 1000)).
Definition hmG K0 G0 phic Cn sg f := hertz_GK K0 G0 f * hmK K0 G0 phic Cn sg.
Lemma hmK_pos K0 G0 phic Cn sg : 0 < K0 -> 0 < G0 -> 0 <= phic < 1 -> 0 < Cn -> 0 < sg -> 0 < hmK K0 G0 phic Cn sg.
Proof. intros. apply cbrt_pos, K3_pos; lra. Qed.
Lemma hmG_pos K0 G0 phic Cn sg f : 0 < K0 -> 0 < G0 -> 0 <= phic < 1 -> 0 < Cn -> 0 < sg -> 0 <= f <= 1 -> 0 < hmG K0 G0 phic Cn sg f.
Proof. intros. apply Rmult_lt_0_compat; [apply GK_pos; lra|apply hmK_pos; lra]. Qed.
Lemma hmK_0 K0 G0 phic Cn sg : 0 <= hmK K0 G0 phic Cn sg.
Proof. apply cbrt_nonneg. Qed.
Lemma hmG_0 K0 G0 phic Cn sg f : 0 < K0 -> 0 < G0 -> 0 <= f <= 1 -> 0 <= hmG K0 G0 phic Cn sg f.
Proof. intros. apply Rmult_le_pos; [left; apply GK_pos; lra|apply hmK_0]. Qed.
Lemma hmK_cube K0 G0 phic Cn sg : 0 < K0 -> 0 < G0 -> 0 <= phic < 1 -> 0 < Cn -> 0 <= sg -> hmK K0 G0 phic Cn sg ^ 3 = hertz_K3 K0 G0 phic Cn (sg / 1000).
Proof. intros. apply cbrt_cube, K3_nonneg; lra. Qed.
Section HMle.
Variables (phic Cn sg : R).
Hypotheses (Hp : 0 <= phic < 1) (HC : 0 < Cn) (Hs : 0 <= sg).
Lemma hmC : 0 <= Cn^2 * (1 - phic)^2 * (sg / 1000) / (18 * PI^2).
Proof.
  assert (X := PI_RGT_0). apply Rmult_le_pos; [|left; pos]. apply Rmult_le_pos; [|lra]. apply Rmult_le_pos; apply pow2_ge_0.
Qed.
Lemma hmK_le K0 K0' G0 G0' : 0 < K0 <= K0' -> 0 < G0 <= G0' -> hmK K0 G0 phic Cn sg <= hmK K0' G0' phic Cn sg.
Proof.
  intros HK HG. apply cbrt_le. split; [apply K3_nonneg; lra|]. rewrite !K3_x by lra. apply Rmult_le_compat_l; [apply hmC|].
  assert (A := xnu_lo K0 G0 ltac:(lra) ltac:(lra)). assert (B := xnu_lo K0' G0 ltac:(lra) ltac:(lra)).
  apply pow_incr. split; [left; apply Rdiv_lt_0_compat; lra|].
  apply Rle_trans with (G0 / xnu K0' G0); [|apply Gx_G; lra].
  apply Rmult_le_compat_l; [lra|]. apply Rinv_le_contravar; [lra|]. apply xnu_K; lra.
Qed.
Lemma hmG_le_G K0 G0 G0' f : 0 < K0 -> 0 < G0 <= G0' -> 0 <= f <= 1 -> hmG K0 G0 phic Cn sg f <= hmG K0 G0' phic Cn sg f.
Proof.
  intros HK HG Hf. apply Rmult_le_compat; [left; apply GK_pos; lra|apply hmK_0| |apply hmK_le; lra].
  rewrite !GK_rgh by lra. apply Rmult_le_compat_l; [lra|]. apply rgh_x; [lra|].
  assert (A := xnu_lo K0 G0 ltac:(lra) ltac:(lra)). split; [lra|apply xnu_G; lra].
Qed.
Lemma hmG_le_K K0 K0' G0 f : 0 < K0 <= K0' -> 0 < G0 -> 0 <= f <= 1 -> hmG K0 G0 phic Cn sg f <= hmG K0' G0 phic Cn sg f.
Proof.
  intros HK HG Hf. apply cube_le_inv. unfold hmG. rewrite !Rpow_mult_distr, !hmK_cube, !GK_rgh, !K3_x by lra.
  assert (A := xnu_lo K0' G0 ltac:(lra) ltac:(lra)). assert (B := xnu_K K0 K0' G0 HK HG).
  set (x := xnu K0' G0) in *. set (y := xnu K0 G0) in *. clearbody x y. assert (c := hmC). set (C := Cn^2 * (1 - phic)^2 * (sg / 1000) / (18 * PI^2)) in *. clearbody C.
  replace ((3/5 * rgh f y)^3 * (C * (G0 / y)^2)) with ((27/125 * C * G0^2) * (rgh f y ^ 3 / y^2)) by (field; lra).
  replace ((3/5 * rgh f x)^3 * (C * (G0 / x)^2)) with ((27/125 * C * G0^2) * (rgh f x ^ 3 / x^2)) by (field; lra).
  apply Rmult_le_compat_l. { apply Rmult_le_pos; [lra|apply pow2_ge_0]. }
  assert (Px := rgh_pos f x ltac:(lra) ltac:(lra)). assert (Py := rgh_pos f y ltac:(lra) ltac:(lra)).
  assert (Q := rgh_sq f x y Hf ltac:(lra) B).
  assert (S1 : rgh f y ^ 2 / y <= rgh f x ^ 2 / x).
  { apply div_le_iff; [lra|]. replace (rgh f x ^ 2 / x * y) with (rgh f x ^ 2 * y / x) by (field; lra). apply le_div_iff; [lra|]. lra. }
  assert (S2 : rgh f y / y <= rgh f x / x).
  { unfold rgh. replace ((1 + (1 + 3 * f) * y) / (1 + y) / y) with (1 / (1 + y) * (/ y + (1 + 3 * f))) by (field; lra).
    replace ((1 + (1 + 3 * f) * x) / (1 + x) / x) with (1 / (1 + x) * (/ x + (1 + 3 * f))) by (field; lra).
    assert (/ y <= / x) by (apply Rinv_le_contravar; lra). assert (0 < / y) by (apply Rinv_0_lt_compat; lra).
    apply Rmult_le_compat; try lra. { left; apply Rdiv_lt_0_compat; lra. } apply inv_le; lra. }
  replace (rgh f y ^ 3 / y^2) with (rgh f y ^ 2 / y * (rgh f y / y)) by (field; lra).
  replace (rgh f x ^ 3 / x^2) with (rgh f x ^ 2 / x * (rgh f x / x)) by (field; lra).
  apply Rmult_le_compat; try assumption. { left. apply Rdiv_lt_0_compat; [apply pow_lt|]; lra. } left; apply Rdiv_lt_0_compat; lra.
Qed.
End HMle.
Lemma hm_all K0 K0' G0 G0' phic phic' Cn Cn' sg sg' f f' : 0 < K0 <= K0' -> 0 < G0 <= G0' -> 0 <= phic' <= phic -> phic < 1 ->
  0 < Cn <= Cn' -> 0 <= sg <= sg' -> 0 <= f -> f <= f' -> f' <= 1 ->
  hmK K0 G0 phic Cn sg <= hmK K0' G0' phic' Cn' sg' /\ hmG K0 G0 phic Cn sg f <= hmG K0' G0' phic' Cn' sg' f'.
Proof.
  intros HK HG Hp Hp1 HC Hs Hf Hff Hf1.
  assert (A : hmK K0' G0' phic Cn sg <= hmK K0' G0' phic' Cn' sg').
  { apply cbrt_le. split; [apply K3_nonneg; lra|apply K3_mono; lra]. }
  split; [apply Rle_trans with (2 := A); apply hmK_le; lra|].
  apply Rle_trans with (hmG K0' G0 phic Cn sg f); [apply hmG_le_K; lra|].
  apply Rle_trans with (hmG K0' G0' phic Cn sg f); [apply hmG_le_G; lra|].
  apply Rmult_le_compat; [left; apply GK_pos; lra|apply hmK_0| |exact A].
  rewrite !GK_rgh by lra. apply Rmult_le_compat_l; [lra|]. apply rgh_f; [lra|].
  assert (X := xnu_lo K0' G0' ltac:(lra) ltac:(lra)). lra.
Qed.
Lemma hm_le m K0 K0' G0 G0' phic phic' Cn Cn' sg sg' f f' : 0 < K0 <= K0' -> 0 < G0 <= G0' -> 0 <= phic' <= phic -> phic < 1 ->
  0 < Cn <= Cn' -> 0 <= sg <= sg' -> 0 <= f -> f <= f' -> f' <= 1 -> exists K G K' G',
  GM_hertzmindlin m (Fin K0) (Fin G0) (Fin phic) (Fin Cn) (Fin sg) (Fin f) = Ret (Fin K, Fin G) /\
  GM_hertzmindlin m (Fin K0') (Fin G0') (Fin phic') (Fin Cn') (Fin sg') (Fin f') = Ret (Fin K', Fin G') /\ K <= K' /\ G <= G'.
Proof.
  intros. rewrite !hertzmindlin_fin by lra. cbv zeta. do 4 eexists. split; [reflexivity|split; [reflexivity|]]. apply hm_all; lra.
Qed.
Lemma walton_le m K0 K0' G0 G0' phic phic' Cn Cn' sg sg' f f' : 0 < K0 <= K0' -> 0 < G0 <= G0' -> 0 <= phic' <= phic -> phic < 1 ->
  0 < Cn <= Cn' -> 0 <= sg <= sg' -> 0 <= f -> f <= f' -> f' <= 1 -> exists K G K' G',
  GM_Walton m (Fin K0) (Fin G0) (Fin phic) (Fin Cn) (Fin sg) (Fin f) = Ret (Fin K, Fin G) /\
  GM_Walton m (Fin K0') (Fin G0') (Fin phic') (Fin Cn') (Fin sg') (Fin f') = Ret (Fin K', Fin G') /\ K <= K' /\ G <= G'.
Proof. intros. rewrite !walton_hm by lra. apply hm_le; lra. Qed.

(** ** Sands *)
Lemma phi_frac phi phic : 0 <= phi <= phic -> 0 < phic -> 0 <= phi / phic <= 1.
Proof. intros. split; [apply le_div_iff|apply div_le_iff]; lra. Qed.
Lemma softsand_le m K0 K0' G0 G0' phi phic Cn Cn' sg sg' f f' : 0 < K0 <= K0' -> 0 < G0 <= G0' -> 0 <= phi <= phic -> 0 < phic < 1 ->
  0 < Cn <= Cn' -> 0 < sg <= sg' -> 0 <= f -> f <= f' -> f' <= 1 -> exists K G K' G',
  GM_softsand m (Fin K0) (Fin G0) (Fin phi) (Fin phic) (Fin Cn) (Fin sg) (Fin f) = Ret (Fin K, Fin G) /\
  GM_softsand m (Fin K0') (Fin G0') (Fin phi) (Fin phic) (Fin Cn') (Fin sg') (Fin f') = Ret (Fin K', Fin G') /\
  0 < K <= K' /\ 0 < G <= G'.
Proof.
  intros HK HG Hp Hp1 HC Hs Hf Hff Hf1. rewrite !softsand_fin by lra. cbv zeta. do 4 eexists. split; [reflexivity|split; [reflexivity|]].
  assert (T := phi_frac phi phic Hp ltac:(lra)).
  destruct (hm_all K0 K0' G0 G0' phic phic Cn Cn' sg sg' f f') as (A & B); try lra.
  assert (PK := hmK_pos K0 G0 phic Cn sg ltac:(lra) ltac:(lra) ltac:(lra) ltac:(lra) ltac:(lra)).
  assert (PG := hmG_pos K0 G0 phic Cn sg f ltac:(lra) ltac:(lra) ltac:(lra) ltac:(lra) ltac:(lra) ltac:(lra)).
  fold (hmK K0 G0 phic Cn sg) (hmK K0' G0' phic Cn' sg').
  fold (hmG K0 G0 phic Cn sg f) (hmG K0' G0' phic Cn' sg' f').
  set (k := hmK K0 G0 phic Cn sg) in *. set (g := hmG K0 G0 phic Cn sg f) in *. clearbody k g.
  set (k' := hmK K0' G0' phic Cn' sg') in *. set (g' := hmG K0' G0' phic Cn' sg' f') in *. clearbody k' g'.
  assert (ZK := zK_le g g' ltac:(lra)). assert (ZG := zG_le k k' g g' ltac:(lra) ltac:(lra)).
  assert (LB : forall z a b, 0 < z -> 0 < a -> 0 < b -> 0 < walpole z (phi / phic) a b).
  { intros z a b Hz Ha Hb. apply Rlt_le_trans with (Rmin a b); [apply Rmin_glb_lt; auto|].
    rewrite <- (walpole_same z (phi / phic) (Rmin a b)) at 1.
    2:{ assert (0 < Rmin a b) by (apply Rmin_glb_lt; auto). lra. }
    assert (0 < Rmin a b) by (apply Rmin_glb_lt; auto). apply walpole_mono; try lra; [apply Rmin_l|apply Rmin_r]. }
  split; (split; [apply LB; lra|]); apply wal_le; lra.
Qed.
Lemma stiffsand_le m K0 K0' G0 G0' phi phic Cn Cn' sg sg' f f' : 0 < K0 <= K0' -> 0 < G0 <= G0' -> 0 <= phi <= phic -> 0 < phic < 1 ->
  0 < Cn <= Cn' -> 0 < sg <= sg' -> 0 <= f -> f <= f' -> f' <= 1 -> exists K G K' G',
  GM_stiffsand m (Fin K0) (Fin G0) (Fin phi) (Fin phic) (Fin Cn) (Fin sg) (Fin f) = Ret (Fin K, Fin G) /\
  GM_stiffsand m (Fin K0') (Fin G0') (Fin phi) (Fin phic) (Fin Cn') (Fin sg') (Fin f') = Ret (Fin K', Fin G') /\
  0 < K <= K' /\ 0 < G <= G'.
Proof.
  intros HK HG Hp Hp1 HC Hs Hf Hff Hf1. rewrite !stiffsand_fin by lra. cbv zeta. do 4 eexists. split; [reflexivity|split; [reflexivity|]].
  assert (T := phi_frac phi phic Hp ltac:(lra)).
  destruct (hm_all K0 K0' G0 G0' phic phic Cn Cn' sg sg' f f') as (A & B); try lra.
  assert (PK := hmK_pos K0 G0 phic Cn sg ltac:(lra) ltac:(lra) ltac:(lra) ltac:(lra) ltac:(lra)).
  assert (PG := hmG_pos K0 G0 phic Cn sg f ltac:(lra) ltac:(lra) ltac:(lra) ltac:(lra) ltac:(lra) ltac:(lra)).
  fold (hmK K0 G0 phic Cn sg) (hmK K0' G0' phic Cn' sg').
  fold (hmG K0 G0 phic Cn sg f) (hmG K0' G0' phic Cn' sg' f').
  set (k := hmK K0 G0 phic Cn sg) in *. set (g := hmG K0 G0 phic Cn sg f) in *. clearbody k g.
  set (k' := hmK K0' G0' phic Cn' sg') in *. set (g' := hmG K0' G0' phic Cn' sg' f') in *. clearbody k' g'.
  assert (ZK := zK_le G0 G0' ltac:(lra)). assert (ZG := zG_le K0 K0' G0 G0' ltac:(lra) ltac:(lra)).
  assert (LB : forall z a b, 0 < z -> 0 < a -> 0 < b -> 0 < walpole z (phi / phic) a b).
  { intros z a b Hz Ha Hb. apply Rlt_le_trans with (Rmin a b); [apply Rmin_glb_lt; auto|].
    rewrite <- (walpole_same z (phi / phic) (Rmin a b)) at 1.
    2:{ assert (0 < Rmin a b) by (apply Rmin_glb_lt; auto). lra. }
    assert (0 < Rmin a b) by (apply Rmin_glb_lt; auto). apply walpole_mono; try lra; [apply Rmin_l|apply Rmin_r]. }
  split; (split; [apply LB; lra|]); apply wal_le; lra.
Qed.
Lemma constantcement_le m K0 G0 K0' G0' Kc Gc Kc' Gc' phi phi_b phic phic' Cn Cn' s s' Kb Gb Kb' Gb' :
  GM_contactcement m (Fin K0) (Fin G0) (Fin Kc) (Fin Gc) (Fin phi_b) (Fin phic) (Fin Cn) s = Ret (Fin Kb, Fin Gb) ->
  GM_contactcement m (Fin K0') (Fin G0') (Fin Kc') (Fin Gc') (Fin phi_b) (Fin phic') (Fin Cn') s' = Ret (Fin Kb', Fin Gb') ->
  0 < K0 <= K0' -> 0 < G0 <= G0' -> 0 < Kb <= Kb' -> 0 < Gb <= Gb' -> 0 < phi_b -> 0 <= phi <= phi_b -> exists K G K' G',
  GM_constantcement m (Fin phi_b) (Fin K0) (Fin G0) (Fin Kc) (Fin Gc) (Fin phi) (Fin phic) (Fin Cn) s = Ret (Fin K, Fin G) /\
  GM_constantcement m (Fin phi_b) (Fin K0') (Fin G0') (Fin Kc') (Fin Gc') (Fin phi) (Fin phic') (Fin Cn') s' = Ret (Fin K', Fin G') /\
  K <= K' /\ G <= G'.
Proof.
  intros E E' H1 H2 H3 H4 Hb Hp. rewrite (constantcement_fin _ _ _ _ _ _ _ _ _ _ _ _ E) by lra.
  rewrite (constantcement_fin _ _ _ _ _ _ _ _ _ _ _ _ E') by lra. do 4 eexists. split; [reflexivity|split; [reflexivity|]].
  assert (T := phi_frac phi phi_b Hp Hb). split; apply wal_le; try lra; [apply zK_le|apply zG_le]; lra.
Qed.
Lemma MUHS_le m K0 G0 K0' G0' Kc Gc Kc' Gc' phi phi_b phic phic' Cn Cn' s s' Kb Gb Kb' Gb' :
  GM_contactcement m (Fin K0) (Fin G0) (Fin Kc) (Fin Gc) (Fin phi_b) (Fin phic) (Fin Cn) s = Ret (Fin Kb, Fin Gb) ->
  GM_contactcement m (Fin K0') (Fin G0') (Fin Kc') (Fin Gc') (Fin phi_b) (Fin phic') (Fin Cn') s' = Ret (Fin Kb', Fin Gb') ->
  0 < K0 <= K0' -> 0 < G0 <= G0' -> 0 < Kb <= Kb' -> 0 < Gb <= Gb' -> 0 < phi_b -> 0 <= phi <= phi_b -> exists K G K' G',
  GM_MUHS m (Fin K0) (Fin G0) (Fin Kc) (Fin Gc) (Fin phi) (Fin phi_b) (Fin phic) (Fin Cn) s = Ret (Fin K, Fin G) /\
  GM_MUHS m (Fin K0') (Fin G0') (Fin Kc') (Fin Gc') (Fin phi) (Fin phi_b) (Fin phic') (Fin Cn') s' = Ret (Fin K', Fin G') /\
  K <= K' /\ G <= G'.
Proof.
  intros E E' H1 H2 H3 H4 Hb Hp. rewrite (MUHS_fin _ _ _ _ _ _ _ _ _ _ _ _ E) by lra.
  rewrite (MUHS_fin _ _ _ _ _ _ _ _ _ _ _ _ E') by lra. do 4 eexists. split; [reflexivity|split; [reflexivity|]].
  assert (T := phi_frac phi phi_b Hp Hb). split; apply wal_le; try lra; [apply zK_le|apply zG_le]; lra.
Qed.

(** ** Gassmann in the mineral modulus *)
Lemma gK_mono_K0 Kd K0 K0' Kf phi : 0 < K0 <= K0' -> 0 < Kf <= K0 -> 0 <= Kd < K0 -> 0 < phi <= 1 ->
  gK Kd K0 Kf phi <= gK Kd K0' Kf phi.
Proof.
  intros H0 Hf Hd Hp.
  assert (b := gb_pos Kd K0 ltac:(lra) Hd). assert (B := gB_pos Kd K0 Kf phi ltac:(lra) ltac:(lra) ltac:(lra)).
  assert (b' := gb_pos Kd K0' ltac:(lra) ltac:(lra)). assert (B' := gB_pos Kd K0' Kf phi ltac:(lra) ltac:(lra) ltac:(lra)).
  assert (P : 0 < gB Kd K0 Kf phi) by lra. assert (P' : 0 < gB Kd K0' Kf phi) by lra. clear b B b' B'.
  unfold gK. apply Rplus_le_compat_l.
  assert (G : gB Kd K0 Kf phi = phi / Kf + (1 - phi) * / K0 - Kd * (/ K0)^2) by (unfold gB; field; lra).
  assert (G' : gB Kd K0' Kf phi = phi / Kf + (1 - phi) * / K0' - Kd * (/ K0')^2) by (unfold gB; field; lra).
  replace (Kd / K0) with (Kd * / K0) by reflexivity. replace (Kd / K0') with (Kd * / K0') by reflexivity.
  assert (U : / K0' <= / K0) by (apply Rinv_le_contravar; lra). assert (V : 0 < / K0') by (apply Rinv_0_lt_compat; lra).
  assert (W : Kd * / K0 < 1). { change (Kd / K0 < 1). apply div_lt_iff; lra. }
  assert (F : phi * / K0 <= phi / Kf). { apply Rmult_le_compat_l; [lra|]. apply Rinv_le_contravar; lra. }
  set (D := gB Kd K0 Kf phi) in *. set (D' := gB Kd K0' Kf phi) in *. set (u := / K0) in *. set (v := / K0') in *. set (a := phi / Kf) in *. 
  set (k := Kd) in *. clearbody D D' u v a k.
  assert (Q : k * v <= k * u) by (apply Rmult_le_compat_l; lra).
  assert (KV : 0 <= k * v) by (apply Rmult_le_pos; lra).
  apply div_le_iff; [assumption|]. replace ((1 - k * v)^2 / D' * D) with ((1 - k * v)^2 * D / D') by (field; lra). apply le_div_iff; [assumption|].
  set (p := 1 - k * u) in *. set (q := 1 - k * v) in *.
  assert (Pp : 0 < p) by (unfold p; lra). assert (Pq : 0 < q) by (unfold q; lra).
  assert (E : q^2 * D - p^2 * D' = (u - v) * (a * k * (p + q) + (1 - phi) * (p * k * v + q) - k * (u + v - 2 * k * u * v))).
  { rewrite G, G'. unfold p, q. ring. }
  cut (0 <= (u - v) * (a * k * (p + q) + (1 - phi) * (p * k * v + q) - k * (u + v - 2 * k * u * v))); [lra|].
  apply Rmult_le_pos; [lra|].
  assert (L : phi * u * (k * (p + q)) <= a * (k * (p + q))) by (apply Rmult_le_compat_r; [apply Rmult_le_pos; lra|lra]).
  assert (M : phi * u * (k * (p + q)) + (1 - phi) * (p * k * v + q) - k * (u + v - 2 * k * u * v)
    = phi * (k * (u - v) * p) + (1 - phi) * (p * q)) by (unfold p, q; ring).
  assert (0 <= phi * (k * (u - v) * p)) by (apply Rmult_le_pos; [lra|apply Rmult_le_pos; [apply Rmult_le_pos; lra|lra]]).
  assert (0 <= (1 - phi) * (p * q)) by (apply Rmult_le_pos; [lra|apply Rmult_le_pos; lra]).
  lra.
Qed.
Lemma gassmann_le m Kd Kd' Gd Gd' K0 K0' Kf Kf' phi : 0 < K0 <= K0' -> 0 < Kf <= Kf' -> Kf < K0 -> Kf' < K0' -> 0 <= Kd <= Kd' -> Kd < K0 -> Kd' < K0' ->
  0 < phi <= 1 -> exists K K', Fluid_Gassmann m (Fin Kd) (Fin Gd) (Fin K0) (Fin Kf) (Fin phi) = Ret (Fin K, Fin Gd) /\
  Fluid_Gassmann m (Fin Kd') (Fin Gd') (Fin K0') (Fin Kf') (Fin phi) = Ret (Fin K', Fin Gd') /\ 0 < K <= K'.
Proof.
  intros. rewrite !Gass by lra. do 2 eexists. split; [reflexivity|split; [reflexivity|]].
  split. { destruct (gK_range Kd K0 Kf phi) as (A & B); lra. }
  apply Rle_trans with (gK Kd K0' Kf phi); [apply gK_mono_K0; lra|].
  apply Rle_trans with (gK Kd' K0' Kf phi); [apply gK_mono_Kd; lra|apply gK_mono_Kf; lra].
Qed.
Lemma V_le m K K' G G' rho : 0 < K <= K' -> 0 < G <= G' -> 0 < rho -> exists vp vs vp' vs',
  utils_V m (Fin K) (Fin G) (Fin rho) = Ret (Fin vp, Fin vs) /\ utils_V m (Fin K') (Fin G') (Fin rho) = Ret (Fin vp', Fin vs') /\
  vp <= vp' /\ vs <= vs'.
Proof.
  intros. rewrite !V_eval by lra. do 4 eexists. split; [reflexivity|split; [reflexivity|]].
  assert (0 < / rho) by (apply Rinv_0_lt_compat; lra).
  split; (apply Rmult_le_compat_r; [lra|]); apply sqrt_le_1_alt; apply Rmult_le_compat_r; lra.
Qed.
Lemma vels_le m K K' G G' K0 K0' Kf Kf' D0 Df phi : 0 < K <= K' -> 0 < G <= G' -> 0 < K0 <= K0' -> 0 < Kf <= Kf' -> Kf < K0 -> Kf' < K0' ->
  K < K0 -> K' < K0' -> 0 < phi <= 1 -> 0 < D0 * (1 - phi) + Df * phi -> exists vp vs vp' vs' rho,
  Fluid_vels m (Fin K) (Fin G) (Fin K0) (Fin D0) (Fin Kf) (Fin Df) (Fin phi) = Ret (Fin vp, Fin vs, Fin rho) /\
  Fluid_vels m (Fin K') (Fin G') (Fin K0') (Fin D0) (Fin Kf') (Fin Df) (Fin phi) = Ret (Fin vp', Fin vs', Fin rho) /\
  0 < vp <= vp' /\ 0 < vs <= vs'.
Proof.
  intros HK HG H0 Hf Hf0 Hf0' Hd Hd' Hp Hr. rewrite !vels_eval by lra. do 5 eexists. split; [reflexivity|split; [reflexivity|]].
  assert (P : 0 < gK K K0 Kf phi) by (destruct (gK_range K K0 Kf phi); lra).
  assert (Q : gK K K0 Kf phi <= gK K' K0' Kf' phi).
  { apply Rle_trans with (gK K K0' Kf phi); [apply gK_mono_K0; lra|].
    apply Rle_trans with (gK K' K0' Kf phi); [apply gK_mono_Kd; lra|apply gK_mono_Kf; lra]. }
  set (r := D0 * (1 - phi) + Df * phi) in *. clearbody r.
  assert (0 < / r) by (apply Rinv_0_lt_compat; lra).
  split; (split; [apply Rmult_lt_0_compat; [apply sqrt_lt_R0, Rdiv_lt_0_compat|]; lra|]);
  (apply Rmult_le_compat_r; [lra|]); apply sqrt_le_1_alt; apply Rmult_le_compat_r; lra.
Qed.
Lemma Brie_le m Kw Kw' Kg Kg' S S' e e' : 0 < Kg <= Kg' -> Kw <= Kw' -> Kg <= Kw -> Kg' <= Kw' -> 0 <= S <= S' -> S' <= 1 -> 0 < e' <= e -> exists K K',
  Fluid_Brie m (Fin Kw) (Fin Kg) (Fin S) (Fin e) = Ret (Fin K) /\ Fluid_Brie m (Fin Kw') (Fin Kg') (Fin S') (Fin e') = Ret (Fin K') /\ K <= K'.
Proof.
  intros. rewrite !Brie_any by lra. do 2 eexists. split; [reflexivity|split; [reflexivity|]].
  assert (A : bS S e <= bS S e') by (apply bS_e; lra). assert (B : bS S e' <= bS S' e') by (apply bS_mono; lra).
  assert (C : 0 <= bS S e <= 1) by (split; [apply bS_nonneg|rewrite <- (bS_1 e); apply bS_mono; lra]). assert (D : 0 <= bS S' e' <= 1) by (split; [apply bS_nonneg|rewrite <- (bS_1 e'); apply bS_mono; lra]).
  set (s := bS S e) in *. set (t := bS S' e') in *. clearbody s t.
  apply Rle_trans with ((Kw' - Kg') * s + Kg').
  - assert (0 <= (Kw' - Kw) * s) by (apply Rmult_le_pos; lra). assert (0 <= (Kg' - Kg) * (1 - s)) by (apply Rmult_le_pos; lra). lra.
  - apply Rplus_le_compat_r, Rmult_le_compat_l; lra.
Qed.
