(** * Property theorems about GM.py (C34-C42). *)
From Verif Require Import Fl Cx M_Utils M_EM M_GM Spec Spec3 Spec4 Spec10 RealLemmas L_EM1 L_GM1 L_GM2 L_GM3 L_GM4 L_GM5 L_GM6 L_GM7.
Open Scope R_scope.

(** ** C34: Thomas-Stieber *)
Theorem C34_thomas_stieber :
  forall a b v, 0 <= a <= 1 -> 0 <= b <= 1 -> 0 <= v <= 1 ->
  exists x y, GM_ThomasStieber (Fin a) (Fin b) (Fin v) = Ret (Fin x, Fin y) /\
    y = (1 - v) * a + v * b /\ a * b <= x <= y /\
    (v <= a -> x = a - (1 - b) * v) /\ (a <= v -> x = b * v) /\
    (v = 0 -> x = a /\ y = a) /\ (v = 1 -> x = b /\ y = b) /\ (v = a -> x = a * b).
Proof.
  intros a b v Ha Hb Hv. rewrite TS_fin. do 2 eexists. split; [reflexivity|].
  split; [ring|]. split; [split; [apply TS_bottom|apply TS_order]; auto|].
  split; [intros; apply Rmax_left; nra|]. split; [intros; apply Rmax_right; nra|].
  split; [intros ->; split; [rewrite Rmax_left; lra|ring]|].
  split; [intros ->; split; [rewrite Rmax_right; lra|ring]|]. intros ->. apply TS_vertex.
Qed.
Print Assumptions C34_thomas_stieber.
Example C34_nonvacuous : 0 <= 0.33 <= 1 /\ 0 <= 0.15 <= 1 /\ 0 <= 0.5 <= 1. Proof. lra. Qed.

(** ** C35: sand-shale mixing *)
Theorem C35_shaly_sand :
  forall m phis C Kss Gss Kcc Gcc, 0 < phis -> 0 <= C <= phis -> 0 < Kss -> 0 < Gss -> 0 < Kcc -> 0 < Gcc ->
  exists K G, GM_shaly_sand m (Fin phis) (Fin C) (Fin Kss) (Fin Gss) (Fin Kcc) (Fin Gcc) = Ret (Fin K, Fin G) /\
    K = walpole (zK Gss) (C / phis) Kcc Kss /\ G = walpole (zG Kss Gss) (C / phis) Gcc Gss /\
    (Kcc <= Kss -> Kcc <= K <= Kss) /\ (Gcc <= Gss -> Gcc <= G <= Gss) /\
    (C = 0 -> K = Kss /\ G = Gss) /\ (C = phis -> K = Kcc /\ G = Gcc).
Proof.
  intros m phis C Kss Gss Kcc Gcc HP HC H1 H2 H3 H4. rewrite shaly_sand_fin by auto. do 2 eexists. split; [reflexivity|].
  assert (Z1 := zK_pos Gss H2). assert (Z2 := zG_pos Kss Gss H1 H2).
  assert (T : 0 <= C / phis <= 1) by (split; [apply le_div_iff|apply div_le_iff]; lra).
  split; [reflexivity|]. split; [reflexivity|].
  split; [intros; rewrite walpole_sym; apply walpole_between; lra|].
  split; [intros; rewrite walpole_sym; apply walpole_between; lra|].
  split; intros ->.
  - replace (0 / phis) with 0 by (field; lra). rewrite !walpole_0 by lra. auto.
  - replace (phis / phis) with 1 by (field; lra). rewrite !walpole_1 by lra. auto.
Qed.
Print Assumptions C35_shaly_sand.
Theorem C35_silty_shale_shear :
  forall m C Kq Gq Ksh Gsh, 0 <= C <= 1 -> 0 < Kq -> 0 < Gq -> 0 < Ksh -> 0 < Gsh ->
  exists K G, GM_silty_shale m (Fin C) (Fin Kq) (Fin Gq) (Fin Ksh) (Fin Gsh) = Ret (Fin K, Fin G) /\
    G = walpole (zG Ksh Gsh) C Gsh Gq /\ (Gsh <= Gq -> Gsh <= G <= Gq) /\
    (C = 0 -> G = Gq) /\ (C = 1 -> K = Ksh /\ G = Gsh) /\
    (Gq = Gsh -> K = walpole (zK Gsh) C Ksh Kq) /\
    (K + 4/3 * Gsh) * (C / (Ksh + 4/3 * Gsh) + (1 - C) / (Kq + 4/3 * Gq)) = 1.
Proof.
  intros m C Kq Gq Ksh Gsh HC H1 H2 H3 H4. rewrite silty_shale_fin by auto. do 2 eexists. split; [reflexivity|].
  assert (Z2 := zG_pos Ksh Gsh H3 H4).
  split; [reflexivity|]. split; [intros; rewrite walpole_sym; apply walpole_between; lra|].
  split; [intros ->; apply walpole_0; lra|].
  split; [intros ->; split; [field; lra|apply walpole_1; lra]|]. split; [intros ->; reflexivity|].
  assert (0 < C / (Ksh + 4 / 3 * Gsh) + (1 - C) / (Kq + 4 / 3 * Gq)).
  { assert (0 <= C / (Ksh + 4/3 * Gsh)) by (apply le_div_iff; lra). assert (0 <= (1 - C) / (Kq + 4/3 * Gq)) by (apply le_div_iff; lra).
    destruct (Rlt_dec 0 C); [assert (0 < C / (Ksh + 4/3 * Gsh)) by (apply lt_div_iff; lra)|assert (0 < (1 - C) / (Kq + 4/3 * Gq)) by (apply lt_div_iff; lra)]; lra. }
  match goal with |- (/ ?d - _ + _) * _ = 1 => replace (/ d - 4/3 * Gsh + 4/3 * Gsh) with (/ d) by ring end.
  apply Rinv_l. lra.
Qed.
Print Assumptions C35_silty_shale_shear.
(** Pure silt does not give back the silt's bulk modulus: the error is 4/3 (Gq - Gsh), and a stiffer
    silt pushes the mixture above both end members. *)
Theorem C35_silty_shale_pure_silt_refuted :
  forall m Kq Gq Ksh Gsh, 0 < Kq -> 0 < Gq -> 0 < Ksh -> 0 < Gsh -> Gq <> Gsh ->
  exists K G, GM_silty_shale m (Fin 0) (Fin Kq) (Fin Gq) (Fin Ksh) (Fin Gsh) = Ret (Fin K, Fin G) /\
    K = Kq + 4/3 * (Gq - Gsh) /\ K <> Kq /\ (Gsh < Gq -> Ksh <= Kq -> Ksh < K /\ Kq < K).
Proof.
  intros m Kq Gq Ksh Gsh H1 H2 H3 H4 N. rewrite silty_shale_fin by lra. do 2 eexists. split; [reflexivity|].
  assert (E : / (0 / (Ksh + 4 / 3 * Gsh) + (1 - 0) / (Kq + 4 / 3 * Gq)) - 4 / 3 * Gsh = Kq + 4/3 * (Gq - Gsh)) by (field; lra).
  rewrite E. split; [reflexivity|]. split; [lra|]. lra.
Qed.
Print Assumptions C35_silty_shale_pure_silt_refuted.
Example C35_nonvacuous : 0 < 37 /\ 0 < 44 /\ 0 < 21 /\ 0 < 7 /\ 44 <> 7 /\ 0 < 0.4 /\ 0 <= 0.1 <= 0.4. Proof. lra. Qed.

(** ** C36: Hertz-Mindlin and Walton *)
Theorem C36_hertz_mindlin_moduli :
  forall m K0 G0 phic Cn sg f, 0 < K0 -> 0 < G0 -> 0 <= phic < 1 -> 0 < Cn -> 0 <= sg -> 0 <= f <= 1 ->
  exists K G, GM_hertzmindlin m (Fin K0) (Fin G0) (Fin phic) (Fin Cn) (Fin sg) (Fin f) = Ret (Fin K, Fin G) /\
    0 <= K /\ K^3 = hertz_K3 K0 G0 phic Cn (sg / 1000) /\ G = hertz_GK K0 G0 f * K /\ (0 < sg -> 0 < K /\ 0 < G).
Proof.
  intros m K0 G0 phic Cn sg f HK HG Hp HC Hs Hf. rewrite hertzmindlin_fin by auto. do 2 eexists. split; [reflexivity|].
  assert (A := K3_nonneg K0 G0 phic Cn HK HG Hp HC (sg / 1000) ltac:(lra)).
  split; [apply cbrt_nonneg|]. split; [apply cbrt_cube, A|]. split; [reflexivity|]. intros P.
  assert (X : 0 < cbrt (hertz_K3 K0 G0 phic Cn (sg / 1000))) by (apply cbrt_pos, K3_pos; auto; lra).
  split; [exact X|]. apply Rmult_lt_0_compat; [apply GK_pos; auto|exact X].
Qed.
Print Assumptions C36_hertz_mindlin_moduli.
Theorem C36_walton_equals_hertz_mindlin :
  forall m K0 G0 phic Cn, 0 < K0 -> 0 < G0 -> 0 <= phic < 1 -> 0 < Cn -> forall sg f, 0 <= sg ->
  GM_Walton m (Fin K0) (Fin G0) (Fin phic) (Fin Cn) (Fin sg) (Fin f) =
  GM_hertzmindlin m (Fin K0) (Fin G0) (Fin phic) (Fin Cn) (Fin sg) (Fin f).
Proof. exact walton_hm. Qed.
Print Assumptions C36_walton_equals_hertz_mindlin.
(** Cube-root law in pressure, power 2/3 in the coordination number. *)
Theorem C36_scaling :
  forall m K0 G0 phic Cn sg f l c, 0 < K0 -> 0 < G0 -> 0 <= phic < 1 -> 0 < Cn -> 0 <= sg -> 0 <= l -> 0 < c ->
  exists K G, GM_hertzmindlin m (Fin K0) (Fin G0) (Fin phic) (Fin Cn) (Fin sg) (Fin f) = Ret (Fin K, Fin G) /\
    GM_hertzmindlin m (Fin K0) (Fin G0) (Fin phic) (Fin (c^3 * Cn)) (Fin (l^3 * sg)) (Fin f) =
      Ret (Fin (c^2 * l * K), Fin (c^2 * l * G)).
Proof.
  intros m K0 G0 phic Cn sg f l c HK HG Hp HC Hs Hl Hc.
  assert (0 < c^3) by (apply pow_lt, Hc). assert (0 <= l^3) by (apply pow_le, Hl).
  assert (0 < c^3 * Cn) by (apply Rmult_lt_0_compat; lra). assert (0 <= l^3 * sg) by (apply Rmult_le_pos; lra).
  rewrite !hertzmindlin_fin by auto. cbv zeta. do 2 eexists. split; [reflexivity|].
  replace (hertz_K3 K0 G0 phic (c^3 * Cn) (l^3 * sg / 1000)) with ((c^2 * l)^3 * hertz_K3 K0 G0 phic Cn (sg / 1000))
    by (unfold hertz_K3, Rdiv; ring).
  rewrite cbrt_scale.
  - reteq. ring.
  - apply Rmult_le_pos; [apply pow_le; lra|lra].
  - apply K3_nonneg; auto; lra.
Qed.
Print Assumptions C36_scaling.
Theorem C36_monotone :
  forall m K0 G0 phic phic' Cn Cn' sg sg' f f', 0 < K0 -> 0 < G0 -> 0 <= phic' -> phic' <= phic -> phic < 1 ->
  0 < Cn -> Cn <= Cn' -> 0 <= sg -> sg <= sg' -> 0 <= f -> f <= f' -> f' <= 1 ->
  exists K G K' G', GM_hertzmindlin m (Fin K0) (Fin G0) (Fin phic) (Fin Cn) (Fin sg) (Fin f) = Ret (Fin K, Fin G) /\
    GM_hertzmindlin m (Fin K0) (Fin G0) (Fin phic') (Fin Cn') (Fin sg') (Fin f') = Ret (Fin K', Fin G') /\
    K <= K' /\ G <= G' /\ (sg < sg' -> K < K' /\ G < G').
Proof.
  intros m K0 G0 phic phic' Cn Cn' sg sg' f f' HK HG H1 H2 H3 H4 H5 H6 H7 H8 H9 H10.
  rewrite !hertzmindlin_fin by lra. cbv zeta. do 4 eexists. split; [reflexivity|]. split; [reflexivity|].
  assert (A := K3_nonneg K0 G0 phic Cn HK HG ltac:(lra) H4 (sg / 1000) ltac:(lra)).
  assert (B := K3_mono K0 G0 phic phic' Cn Cn' (sg / 1000) (sg' / 1000) HK HG ltac:(lra) H3 ltac:(lra) ltac:(lra)).
  assert (Q := GK_pos K0 G0 HK HG f ltac:(lra)).
  assert (Q' : hertz_GK K0 G0 f <= hertz_GK K0 G0 f').
  { destruct H9 as [L| ->]; [left; apply (GK_mono K0 G0 0); auto; lra|lra]. }
  assert (C := cbrt_le _ _ (conj A B)). assert (D := cbrt_nonneg (hertz_K3 K0 G0 phic Cn (sg / 1000))).
  split; [exact C|]. split; [apply Rmult_le_compat; lra|]. intros L.
  assert (E : hertz_K3 K0 G0 phic Cn (sg / 1000) < hertz_K3 K0 G0 phic' Cn' (sg' / 1000)).
  { apply Rlt_le_trans with (hertz_K3 K0 G0 phic' Cn' (sg' / 1000)); [|lra].
    assert (B2 := K3_mono K0 G0 phic phic' Cn Cn' (sg / 1000) (sg / 1000) HK HG ltac:(lra) H3 ltac:(lra) ltac:(lra)).
    eapply Rle_lt_trans; [exact B2|].
    replace (sg' / 1000) with (sg / 1000 + (sg' - sg) / 1000) by field.
    assert (X := K3_pos K0 G0 phic' Cn' HK HG ltac:(lra) ltac:(lra) ((sg' - sg) / 1000) ltac:(lra)).
    unfold hertz_K3 in *. unfold Rdiv in *. lra. }
  assert (F := cbrt_lt _ _ (conj A E)). split; [exact F|].
  apply Rlt_le_trans with (hertz_GK K0 G0 f * cbrt (hertz_K3 K0 G0 phic' Cn' (sg' / 1000))).
  - apply Rmult_lt_compat_l; lra.
  - apply Rmult_le_compat_r; lra.
Qed.
Print Assumptions C36_monotone.
(** Smooth contacts (f=0) are the compliant limit with Poisson ratio 1/4, rough contacts (f=1) the stiff
    one: the docstring of the slip parameter has the two names exchanged. *)
Theorem C36_slip_parameter_docstring_refuted :
  forall m K0 G0 phic Cn sg, 0 < K0 -> 0 < G0 -> 0 <= phic < 1 -> 0 < Cn -> 0 < sg ->
  exists K Gs Gr, GM_hertzmindlin m (Fin K0) (Fin G0) (Fin phic) (Fin Cn) (Fin sg) (Fin 0) = Ret (Fin K, Fin Gs) /\
    GM_hertzmindlin m (Fin K0) (Fin G0) (Fin phic) (Fin Cn) (Fin sg) (Fin 1) = Ret (Fin K, Fin Gr) /\
    Gs = 3/5 * K /\ poisson K Gs = 1/4 /\ Gr = 3/5 * ((5 - 4 * poisson K0 G0) / (2 - poisson K0 G0)) * K /\ Gs < Gr.
Proof.
  intros m K0 G0 phic Cn sg HK HG Hp HC Hs. rewrite !hertzmindlin_fin by (auto; lra). cbv zeta.
  do 3 eexists. split; [reflexivity|]. split; [reflexivity|].
  assert (X : 0 < cbrt (hertz_K3 K0 G0 phic Cn (sg / 1000))) by (apply cbrt_pos, K3_pos; auto; lra).
  set (K := cbrt _) in *.
  assert (A : hertz_GK K0 G0 0 = 3/5) by (unfold hertz_GK; ring).
  assert (B : hertz_GK K0 G0 1 = 3/5 * ((5 - 4 * poisson K0 G0) / (2 - poisson K0 G0))) by (unfold hertz_GK; ring).
  assert (D := rough_gt1 K0 G0 HK HG).
  rewrite A, B. split; [reflexivity|]. split; [unfold poisson; field; lra|]. split; [reflexivity|].
  apply Rmult_lt_compat_r; lra.
Qed.
Print Assumptions C36_slip_parameter_docstring_refuted.
Example C36_nonvacuous : 0 < 37 /\ 0 < 44 /\ 0 <= 0.36 < 1 /\ 0 < 9 /\ 0 < 10 < 20 /\ 0 <= 0 <= 1. Proof. lra. Qed.

(** ** C37: soft- and stiff-sand models *)
Theorem C37_soft_and_stiff_sand :
  forall m K0 G0 phi phic Cn sg f, 0 < K0 -> 0 < G0 -> 0 < phic < 1 -> 0 < Cn -> 0 < sg -> 0 <= f <= 1 -> 0 <= phi <= phic ->
  exists Kh Gh Ks Gs Kt Gt,
    GM_hertzmindlin m (Fin K0) (Fin G0) (Fin phic) (Fin Cn) (Fin sg) (Fin f) = Ret (Fin Kh, Fin Gh) /\ 0 < Kh /\ 0 < Gh /\
    GM_softsand m (Fin K0) (Fin G0) (Fin phi) (Fin phic) (Fin Cn) (Fin sg) (Fin f) = Ret (Fin Ks, Fin Gs) /\
    GM_stiffsand m (Fin K0) (Fin G0) (Fin phi) (Fin phic) (Fin Cn) (Fin sg) (Fin f) = Ret (Fin Kt, Fin Gt) /\
    Ks = walpole (zK Gh) (phi / phic) Kh K0 /\ Gs = walpole (zG Kh Gh) (phi / phic) Gh G0 /\
    Kt = walpole (zK G0) (phi / phic) Kh K0 /\ Gt = walpole (zG K0 G0) (phi / phic) Gh G0 /\
    (Kh <= K0 -> Gh <= G0 -> Kh <= Ks <= Kt /\ Kt <= K0 /\ Gh <= Gs <= Gt /\ Gt <= G0) /\
    (phi = 0 -> Ks = K0 /\ Gs = G0 /\ Kt = K0 /\ Gt = G0) /\
    (phi = phic -> Ks = Kh /\ Gs = Gh /\ Kt = Kh /\ Gt = Gh).
Proof.
  intros m K0 G0 phi phic Cn sg f HK HG Hp HC Hs Hf Hphi.
  rewrite hertzmindlin_fin, softsand_fin, stiffsand_fin by (auto; lra). cbv zeta.
  assert (X : 0 < cbrt (hertz_K3 K0 G0 phic Cn (sg / 1000))) by (apply cbrt_pos, K3_pos; auto; lra).
  assert (Y : 0 < hertz_GK K0 G0 f * cbrt (hertz_K3 K0 G0 phic Cn (sg / 1000))) by (apply Rmult_lt_0_compat; [apply GK_pos; auto|exact X]).
  set (K := cbrt _) in *. set (G := hertz_GK K0 G0 f * K) in *.
  do 6 eexists. split; [reflexivity|]. split; [exact X|]. split; [exact Y|]. split; [reflexivity|]. split; [reflexivity|].
  do 4 (split; [reflexivity|]).
  assert (T : 0 <= phi / phic <= 1) by (split; [apply le_div_iff|apply div_le_iff]; lra).
  assert (A1 := zK_pos G Y). assert (A2 := zK_pos G0 HG). assert (A3 := zG_pos K G X Y). assert (A4 := zG_pos K0 G0 HK HG).
  split; [|split].
  - intros L1 L2.
    assert (zK G <= zK G0) by (unfold zK; lra). assert (zG K G <= zG K0 G0) by (apply zG_mono; auto).
    assert (B1 : K <= walpole (zK G) (phi / phic) K K0 <= K0) by (rewrite walpole_sym; apply walpole_between; lra).
    assert (B2 : K <= walpole (zK G0) (phi / phic) K K0 <= K0) by (rewrite walpole_sym; apply walpole_between; lra).
    assert (B3 : G <= walpole (zG K G) (phi / phic) G G0 <= G0) by (rewrite walpole_sym; apply walpole_between; lra).
    assert (B4 : G <= walpole (zG K0 G0) (phi / phic) G G0 <= G0) by (rewrite walpole_sym; apply walpole_between; lra).
    assert (B5 : walpole (zK G) (phi / phic) K K0 <= walpole (zK G0) (phi / phic) K K0) by (apply walpole_mono_z; lra).
    assert (B6 : walpole (zG K G) (phi / phic) G G0 <= walpole (zG K0 G0) (phi / phic) G G0) by (apply walpole_mono_z; lra).
    lra.
  - intros ->. replace (0 / phic) with 0 by (field; lra). rewrite !walpole_0 by lra. auto.
  - intros ->. replace (phic / phic) with 1 by (field; lra). rewrite !walpole_1 by lra. auto.
Qed.
Print Assumptions C37_soft_and_stiff_sand.
Theorem C37_decreasing_in_porosity :
  forall m K0 G0 phi phi' phic Cn sg f Kh Gh, 0 < K0 -> 0 < G0 -> 0 < phic < 1 -> 0 < Cn -> 0 < sg -> 0 <= f <= 1 ->
  0 <= phi -> phi <= phi' -> phi' <= phic ->
  GM_hertzmindlin m (Fin K0) (Fin G0) (Fin phic) (Fin Cn) (Fin sg) (Fin f) = Ret (Fin Kh, Fin Gh) -> Kh <= K0 -> Gh <= G0 ->
  exists Ks Gs Kt Gt Ks' Gs' Kt' Gt',
    GM_softsand m (Fin K0) (Fin G0) (Fin phi) (Fin phic) (Fin Cn) (Fin sg) (Fin f) = Ret (Fin Ks, Fin Gs) /\
    GM_stiffsand m (Fin K0) (Fin G0) (Fin phi) (Fin phic) (Fin Cn) (Fin sg) (Fin f) = Ret (Fin Kt, Fin Gt) /\
    GM_softsand m (Fin K0) (Fin G0) (Fin phi') (Fin phic) (Fin Cn) (Fin sg) (Fin f) = Ret (Fin Ks', Fin Gs') /\
    GM_stiffsand m (Fin K0) (Fin G0) (Fin phi') (Fin phic) (Fin Cn) (Fin sg) (Fin f) = Ret (Fin Kt', Fin Gt') /\
    Ks' <= Ks /\ Gs' <= Gs /\ Kt' <= Kt /\ Gt' <= Gt.
Proof.
  intros m K0 G0 phi phi' phic Cn sg f Kh Gh HK HG Hp HC Hs Hf H1 H2 H3.
  rewrite hertzmindlin_fin by (auto; lra). cbv zeta. intros E; injection E as E1 E2. intros L1 L2.
  rewrite !softsand_fin, !stiffsand_fin by (auto; lra). cbv zeta. rewrite E1 in E2. rewrite E1. rewrite E2.
  assert (X : 0 < Kh) by (rewrite <- E1; apply cbrt_pos, K3_pos; auto; lra).
  assert (Y : 0 < Gh) by (rewrite <- E2; apply Rmult_lt_0_compat; [apply GK_pos; auto|exact X]).
  do 8 eexists. do 4 (split; [reflexivity|]).
  assert (T : 0 <= phi / phic <= 1) by (split; [apply le_div_iff|apply div_le_iff]; lra).
  assert (T' : 0 <= phi' / phic <= 1) by (split; [apply le_div_iff|apply div_le_iff]; lra).
  assert (T2 : phi / phic <= phi' / phic) by (apply Rmult_le_compat_r; [left; apply Rinv_0_lt_compat; lra|exact H2]).
  assert (A1 := zK_pos Gh Y). assert (A2 := zK_pos G0 HG). assert (A3 := zG_pos Kh Gh X Y). assert (A4 := zG_pos K0 G0 HK HG).
  rewrite (walpole_sym _ (phi / phic)), (walpole_sym _ (phi / phic)), (walpole_sym _ (phi / phic)), (walpole_sym _ (phi / phic)).
  rewrite (walpole_sym _ (phi' / phic)), (walpole_sym _ (phi' / phic)), (walpole_sym _ (phi' / phic)), (walpole_sym _ (phi' / phic)).
  repeat split; apply walpole_mono_f; lra.
Qed.
Print Assumptions C37_decreasing_in_porosity.
Theorem C37_soft_sand_stiffens_with_pressure :
  forall m K0 G0 phi phic Cn sg sg' f, 0 < K0 -> 0 < G0 -> 0 < phic < 1 -> 0 < Cn -> 0 < sg -> sg <= sg' -> 0 <= f <= 1 ->
  0 <= phi <= phic ->
  exists K G K' G',
    GM_softsand m (Fin K0) (Fin G0) (Fin phi) (Fin phic) (Fin Cn) (Fin sg) (Fin f) = Ret (Fin K, Fin G) /\
    GM_softsand m (Fin K0) (Fin G0) (Fin phi) (Fin phic) (Fin Cn) (Fin sg') (Fin f) = Ret (Fin K', Fin G') /\
    K <= K' /\ G <= G'.
Proof.
  intros m K0 G0 phi phic Cn sg sg' f HK HG Hp HC Hs L Hf Hphi.
  rewrite !softsand_fin by (auto; lra). cbv zeta. do 4 eexists. split; [reflexivity|]. split; [reflexivity|].
  assert (X : 0 < cbrt (hertz_K3 K0 G0 phic Cn (sg / 1000))) by (apply cbrt_pos, K3_pos; auto; lra).
  assert (Q := GK_pos K0 G0 HK HG f Hf).
  assert (Z : cbrt (hertz_K3 K0 G0 phic Cn (sg / 1000)) <= cbrt (hertz_K3 K0 G0 phic Cn (sg' / 1000))).
  { apply cbrt_le. split; [apply K3_nonneg; auto; lra|apply K3_mono; auto; lra]. }
  assert (T : 0 <= phi / phic <= 1) by (split; [apply le_div_iff|apply div_le_iff]; lra).
  apply last_mono; auto.
  - split; [apply Rmult_lt_0_compat; auto|apply Rmult_le_compat_l; lra].
Qed.
Print Assumptions C37_soft_sand_stiffens_with_pressure.
Example C37_nonvacuous : exists m sg Kh Gh, 0 < sg /\
  GM_hertzmindlin m (Fin 37) (Fin 44) (Fin 0.4) (Fin 9) (Fin sg) (Fin 1) = Ret (Fin Kh, Fin Gh) /\ Kh <= 37 /\ Gh <= 44.
Proof.
  destruct (hm_small PyFloat 37 44 0.4 9 1 37 44) as (sg & Ku & Gu & A & B & C & D); try lra.
  exists PyFloat, sg, Ku, Gu. repeat split; auto; lra.
Qed.

(** ** C38: contact-cement model *)
Theorem C38_dvorkin_nur :
  forall m K0 G0 Kc Gc phi phic Cn scheme, 0 < K0 -> 0 < G0 -> 0 < Kc -> 0 < Gc -> phi <= phic -> phic < 1 -> 0 < Cn ->
  exists K G,
    GM_contactcement m (Fin K0) (Fin G0) (Fin Kc) (Fin Gc) (Fin phi) (Fin phic) (Fin Cn) scheme = Ret (Fin K, Fin G) /\
    let a := cement_radius scheme (phic - phi) phic Cn in
    K = 1/6 * Cn * (1 - phic) * (Kc + 4/3 * Gc) * dnS (lambda_n K0 G0 Kc Gc) a /\
    G = 3/5 * K + 3/20 * Cn * (1 - phic) * Gc * dnT (poisson K0 G0) (lambda_t G0 Gc) a.
Proof.
  intros. rewrite contactcement_fin by auto. cbv zeta. do 2 eexists. split; [reflexivity|]. split; reflexivity.
Qed.
Print Assumptions C38_dvorkin_nur.
(** More cement (lower porosity) makes the rock strictly stiffer, as long as the cement layer stays
    within the range of the fits: radius at most 1 and small against the stiffness contrasts. *)
Theorem C38_cement_stiffens :
  forall m K0 G0 Kc Gc phi phi' phic Cn scheme, 0 < K0 -> 0 < G0 -> 0 < Kc -> 0 < Gc -> 2 * G0 <= 3 * K0 ->
  phi' < phi -> phi <= phic -> phic < 1 -> 0 < Cn ->
  let a := cement_radius scheme (phic - phi') phic Cn in
  a <= 1 -> a^2 <= 16 * lambda_n K0 G0 Kc Gc -> a^2 <= 11 * lambda_t G0 Gc ->
  exists K G K' G',
    GM_contactcement m (Fin K0) (Fin G0) (Fin Kc) (Fin Gc) (Fin phi) (Fin phic) (Fin Cn) scheme = Ret (Fin K, Fin G) /\
    GM_contactcement m (Fin K0) (Fin G0) (Fin Kc) (Fin Gc) (Fin phi') (Fin phic) (Fin Cn) scheme = Ret (Fin K', Fin G') /\
    0 < K < K' /\ 0 < G < G'.
Proof.
  intros m K0 G0 Kc Gc phi phi' phic Cn scheme HK HG HKc HGc Hn L Lp Hp HC a A1 A2 A3.
  rewrite !contactcement_fin by lra. cbv zeta. do 4 eexists. split; [reflexivity|]. split; [reflexivity|].
  assert (R0 := radius_nonneg scheme (phic - phi) phic Cn).
  assert (R1 : cement_radius scheme (phic - phi) phic Cn < a) by (apply radius_incr; lra).
  destruct (cc_incr K0 G0 Kc Gc phic Cn HK HG HKc HGc Hp HC Hn _ _ R0 R1 A1 A2 A3).
  assert (S2 : (cement_radius scheme (phic - phi) phic Cn)^2 <= a^2) by (apply pow_incr; lra).
  destruct (cc_pos K0 G0 Kc Gc phic Cn HK HG HKc HGc Hp HC Hn _ R0 ltac:(lra) ltac:(lra) ltac:(lra)).
  repeat split; auto.
Qed.
Print Assumptions C38_cement_stiffens.
(** The model does not reduce to a loose pack: with no cement at all it still returns positive moduli. *)
Theorem C38_no_cement_no_stiffness_refuted :
  forall m K0 G0 Kc Gc phic Cn scheme, 0 < K0 -> 0 < G0 -> 0 < Kc -> 0 < Gc -> 2 * G0 <= 3 * K0 -> phic < 1 -> 0 < Cn ->
  exists K G, GM_contactcement m (Fin K0) (Fin G0) (Fin Kc) (Fin Gc) (Fin phic) (Fin phic) (Fin Cn) scheme = Ret (Fin K, Fin G) /\
    0 < K /\ 0 < G.
Proof.
  intros m K0 G0 Kc Gc phic Cn scheme HK HG HKc HGc Hn Hp HC. rewrite contactcement_fin by lra. cbv zeta.
  replace (phic - phic) with 0 by ring. rewrite radius_0. do 2 eexists. split; [reflexivity|]. apply cc_pos0; auto.
Qed.
Print Assumptions C38_no_cement_no_stiffness_refuted.
Theorem C38_moduli_scale :
  forall m l K0 G0 Kc Gc phi phic Cn scheme, 0 < l -> 0 < K0 -> 0 < G0 -> 0 < Kc -> 0 < Gc -> phi <= phic -> phic < 1 -> 0 < Cn ->
  exists K G,
    GM_contactcement m (Fin K0) (Fin G0) (Fin Kc) (Fin Gc) (Fin phi) (Fin phic) (Fin Cn) scheme = Ret (Fin K, Fin G) /\
    GM_contactcement m (Fin (l * K0)) (Fin (l * G0)) (Fin (l * Kc)) (Fin (l * Gc)) (Fin phi) (Fin phic) (Fin Cn) scheme
      = Ret (Fin (l * K), Fin (l * G)).
Proof.
  intros m l K0 G0 Kc Gc phi phic Cn scheme Hl HK HG HKc HGc L Hp HC.
  rewrite !contactcement_fin by (auto; apply Rmult_lt_0_compat; auto). cbv zeta.
  destruct (cc_scale l K0 G0 Kc Gc phic Cn (cement_radius scheme (phic - phi) phic Cn) Hl HK HG HKc HGc) as [-> ->].
  do 2 eexists. split; reflexivity.
Qed.
Print Assumptions C38_moduli_scale.
(** Cement at the contacts (scheme 1) stiffens more than the same amount spread over the grains; every
    scheme value other than 1 selects the even coating, and no value is rejected. *)
Theorem C38_schemes :
  forall m K0 G0 Kc Gc phi phic Cn scheme, 0 < K0 -> 0 < G0 -> 0 < Kc -> 0 < Gc -> 2 * G0 <= 3 * K0 ->
  phi < phic -> phic < 1 -> 0 < Cn -> scheme <> 1%Z ->
  GM_contactcement m (Fin K0) (Fin G0) (Fin Kc) (Fin Gc) (Fin phi) (Fin phic) (Fin Cn) scheme =
  GM_contactcement m (Fin K0) (Fin G0) (Fin Kc) (Fin Gc) (Fin phi) (Fin phic) (Fin Cn) 2 /\
  let a := cement_radius 1 (phic - phi) phic Cn in
  (a <= 1 -> a^2 <= 16 * lambda_n K0 G0 Kc Gc -> a^2 <= 11 * lambda_t G0 Gc -> Cn * (phic - phi) < 12 * (1 - phic) ->
  exists K G K' G',
    GM_contactcement m (Fin K0) (Fin G0) (Fin Kc) (Fin Gc) (Fin phi) (Fin phic) (Fin Cn) 2 = Ret (Fin K, Fin G) /\
    GM_contactcement m (Fin K0) (Fin G0) (Fin Kc) (Fin Gc) (Fin phi) (Fin phic) (Fin Cn) 1 = Ret (Fin K', Fin G') /\
    K < K' /\ G < G').
Proof.
  intros m K0 G0 Kc Gc phi phic Cn scheme HK HG HKc HGc Hn L Hp HC N. split.
  - unfold GM_contactcement. apply Z.eqb_neq in N. rewrite N. reflexivity.
  - intros a A1 A2 A3 A4. rewrite !contactcement_fin by lra. cbv zeta. do 4 eexists. split; [reflexivity|]. split; [reflexivity|].
    apply cc_incr; auto; [apply radius_nonneg|apply radius_scheme; auto; [discriminate|lra]].
Qed.
Print Assumptions C38_schemes.
Theorem C38_linear_in_coordination :
  forall m K0 G0 Kc Gc phi phic Cn l, 0 < K0 -> 0 < G0 -> 0 < Kc -> 0 < Gc -> phi <= phic -> phic < 1 -> 0 < Cn -> 0 < l ->
  exists K G,
    GM_contactcement m (Fin K0) (Fin G0) (Fin Kc) (Fin Gc) (Fin phi) (Fin phic) (Fin Cn) 2 = Ret (Fin K, Fin G) /\
    GM_contactcement m (Fin K0) (Fin G0) (Fin Kc) (Fin Gc) (Fin phi) (Fin phic) (Fin (l * Cn)) 2 = Ret (Fin (l * K), Fin (l * G)).
Proof.
  intros m K0 G0 Kc Gc phi phic Cn l HK HG HKc HGc L Hp HC Hl.
  rewrite !contactcement_fin by (auto; apply Rmult_lt_0_compat; auto). cbv zeta. do 2 eexists. split; [reflexivity|].
  unfold ccG, ccK, cement_radius. simpl Z.eqb. cbv iota. reteq; field.
Qed.
Print Assumptions C38_linear_in_coordination.
(** Quartz grains, quartz cement, 4% cement at the contacts. *)
Example C38_nonvacuous : let a := cement_radius 1 (0.4 - 0.36) 0.4 9 in
  0.36 < 0.4 /\ 2 * 44 <= 3 * 37 /\ 9 * (0.4 - 0.36) < 12 * (1 - 0.4) /\
  a <= 1 /\ a^2 <= 16 * lambda_n 37 44 37 44 /\ a^2 <= 11 * lambda_t 44 44.
Proof.
  assert (Q : sqrt (0.04 / (3 * 9 * (1 - 0.4))) <= 0.05).
  { apply sq_le; [lra|]. replace (sqrt (0.04 / (3 * 9 * (1 - 0.4))) ^ 2) with (sqrt (0.04 / (3 * 9 * (1 - 0.4))) * sqrt (0.04 / (3 * 9 * (1 - 0.4)))) by ring. rewrite sqrt_sqrt; lra. }
  assert (Q0 := sqrt_pos (0.04 / (3 * 9 * (1 - 0.4)))).
  assert (A : (cement_radius 1 (0.4 - 0.36) 0.4 9)^2 <= 0.2).
  { unfold cement_radius. simpl Z.eqb. cbv iota. replace (0.4 - 0.36) with 0.04 by lra.
    set (s := sqrt (0.04 / _)) in *. replace ((2 * sqrt s)^2) with (4 * (sqrt s * sqrt s)) by ring. rewrite sqrt_sqrt; lra. }
  cbv zeta. assert (P := PI_4). assert (P0 := PI_RGT_0).
  split; [lra|]. split; [lra|]. split; [lra|].
  split; [apply sq_le; lra|].
  split.
  - eapply Rle_trans; [exact A|]. unfold lambda_n, poisson.
    replace (16 * (2 * 44 * (1 - (3 * 37 - 2 * 44) / (6 * 37 + 2 * 44)) * (1 - (3 * 37 - 2 * 44) / (6 * 37 + 2 * 44)) /
    (PI * 44 * (1 - 2 * ((3 * 37 - 2 * 44) / (6 * 37 + 2 * 44)))))) with ((16 * 2 * (287/310)^2 / (264/310)) / PI) by (field; lra).
    apply le_div_iff; lra.
  - eapply Rle_trans; [exact A|]. unfold lambda_t. replace (11 * (44 / (PI * 44))) with (11 / PI) by (field; lra).
    apply le_div_iff; lra.
Qed.

(** ** C39: constant cement and modified upper bound *)
Theorem C39_constantcement_and_MUHS :
  forall m K0 G0 Kc Gc phi phi_b phic Cn scheme Kb Gb,
  GM_contactcement m (Fin K0) (Fin G0) (Fin Kc) (Fin Gc) (Fin phi_b) (Fin phic) (Fin Cn) scheme = Ret (Fin Kb, Fin Gb) ->
  0 < K0 -> 0 < G0 -> 0 < Kb -> 0 < Gb -> 0 < phi_b -> 0 <= phi <= phi_b ->
  exists Kl Gl Ku Gu,
    GM_constantcement m (Fin phi_b) (Fin K0) (Fin G0) (Fin Kc) (Fin Gc) (Fin phi) (Fin phic) (Fin Cn) scheme = Ret (Fin Kl, Fin Gl) /\
    GM_MUHS m (Fin K0) (Fin G0) (Fin Kc) (Fin Gc) (Fin phi) (Fin phi_b) (Fin phic) (Fin Cn) scheme = Ret (Fin Ku, Fin Gu) /\
    Kl = walpole (zK Gb) (phi / phi_b) Kb K0 /\ Gl = walpole (zG Kb Gb) (phi / phi_b) Gb G0 /\
    Ku = walpole (zK G0) (phi / phi_b) Kb K0 /\ Gu = walpole (zG K0 G0) (phi / phi_b) Gb G0 /\
    (Kb <= K0 -> Gb <= G0 -> Kb <= Kl <= Ku /\ Ku <= K0 /\ Gb <= Gl <= Gu /\ Gu <= G0) /\
    (phi = 0 -> Kl = K0 /\ Gl = G0 /\ Ku = K0 /\ Gu = G0) /\
    (phi = phi_b -> Kl = Kb /\ Gl = Gb /\ Ku = Kb /\ Gu = Gb).
Proof.
  intros m K0 G0 Kc Gc phi phi_b phic Cn scheme K G E HK HG X Y Hb Hphi.
  rewrite (constantcement_fin m K0 G0 Kc Gc phi phi_b phic Cn scheme K G E), (MUHS_fin m K0 G0 Kc Gc phi phi_b phic Cn scheme K G E) by auto.
  do 4 eexists. split; [reflexivity|]. split; [reflexivity|]. do 4 (split; [reflexivity|]).
  assert (T : 0 <= phi / phi_b <= 1) by (split; [apply le_div_iff|apply div_le_iff]; lra).
  assert (A1 := zK_pos G Y). assert (A2 := zK_pos G0 HG). assert (A3 := zG_pos K G X Y). assert (A4 := zG_pos K0 G0 HK HG).
  split; [|split].
  - intros L1 L2.
    assert (zK G <= zK G0) by (unfold zK; lra). assert (zG K G <= zG K0 G0) by (apply zG_mono; auto).
    assert (B1 : K <= walpole (zK G) (phi / phi_b) K K0 <= K0) by (rewrite walpole_sym; apply walpole_between; lra).
    assert (B2 : K <= walpole (zK G0) (phi / phi_b) K K0 <= K0) by (rewrite walpole_sym; apply walpole_between; lra).
    assert (B3 : G <= walpole (zG K G) (phi / phi_b) G G0 <= G0) by (rewrite walpole_sym; apply walpole_between; lra).
    assert (B4 : G <= walpole (zG K0 G0) (phi / phi_b) G G0 <= G0) by (rewrite walpole_sym; apply walpole_between; lra).
    assert (B5 : walpole (zK G) (phi / phi_b) K K0 <= walpole (zK G0) (phi / phi_b) K K0) by (apply walpole_mono_z; lra).
    assert (B6 : walpole (zG K G) (phi / phi_b) G G0 <= walpole (zG K0 G0) (phi / phi_b) G G0) by (apply walpole_mono_z; lra).
    lra.
  - intros ->. replace (0 / phi_b) with 0 by (field; lra). rewrite !walpole_0 by lra. auto.
  - intros ->. replace (phi_b / phi_b) with 1 by (field; lra). rewrite !walpole_1 by lra. auto.
Qed.
Print Assumptions C39_constantcement_and_MUHS.
(** Any cement content within the fits' range meets the hypotheses. *)
Example C39_nonvacuous : exists Kb Gb,
  GM_contactcement PyFloat (Fin 37) (Fin 44) (Fin 37) (Fin 44) (Fin 0.36) (Fin 0.4) (Fin 9) 1 = Ret (Fin Kb, Fin Gb) /\ 0 < Kb /\ 0 < Gb /\
  0 < 0.36 /\ 0 <= 0.2 <= 0.36.
Proof.
  destruct C38_nonvacuous as (A1 & A2 & A3 & A4 & A5 & A6).
  destruct (C38_cement_stiffens PyFloat 37 44 37 44 0.4 0.36 0.4 9 1) as (K & G & K' & G' & _ & E & P1 & P2); try lra; auto.
  exists K', G'. repeat split; auto; lra.
Qed.

(** ** C40: Digby *)
Theorem C40_digby :
  forall m np K0 G0 phi Cn sg a, roots_ok np -> 0 < K0 -> 0 < G0 -> 0 <= phi < 1 -> 0 < Cn -> 0 < sg -> 0 <= a ->
  exists b, (forall b', digby_radius a (3 * PI * (1 - poisson K0 G0) * (sg / 1000) / (2 * Cn * (1 - phi) * G0)) b' <-> b' = b) /\
    a < b /\
    GM_Digby m np (Fin K0) (Fin G0) (Fin phi) (Fin Cn) (Fin sg) (Fin a) =
    Ret ([Fin (Cn * (1 - phi) / (12 * PI) * (4 * G0 * b / (1 - poisson K0 G0)))],
         [Fin (Cn * (1 - phi) / (20 * PI) * (4 * G0 * b / (1 - poisson K0 G0) + 12 * G0 * a / (2 - poisson K0 G0)))]).
Proof.
  intros m np K0 G0 phi Cn sg a R HK HG Hp HC Hs Ha. destruct (Digby_fin m np K0 G0 phi Cn sg a) as (b & D & E); auto.
  exists b. split; [intros b'; split; [intros D'; eapply digby_unique; eauto|intros ->; exact D]|].
  split; [eapply digby_bond; eauto|]. rewrite E. unfold dgK, dgG.
  assert (N1 := nu_1p K0 G0 HK HG). assert (N2 := nu_2p K0 G0 HK HG). assert (P := PI_RGT_0).
  do 3 f_equal; apply (f_equal Fin); field; lra.
Qed.
Print Assumptions C40_digby.
Theorem C40_digby_monotone :
  forall m np K0 G0 phi Cn sg sg' a a', roots_ok np -> 0 < K0 -> 0 < G0 -> 0 <= phi < 1 -> 0 < Cn -> 0 < sg -> sg <= sg' ->
  0 <= a -> a <= a' -> a < a' \/ sg < sg' ->
  exists K G K' G',
    GM_Digby m np (Fin K0) (Fin G0) (Fin phi) (Fin Cn) (Fin sg) (Fin a) = Ret ([Fin K], [Fin G]) /\
    GM_Digby m np (Fin K0) (Fin G0) (Fin phi) (Fin Cn) (Fin sg') (Fin a') = Ret ([Fin K'], [Fin G']) /\
    0 < K < K' /\ 0 < G < G'.
Proof.
  intros m np K0 G0 phi Cn sg sg' a a' R HK HG Hp HC Hs Ls Ha La S.
  destruct (C40_digby m np K0 G0 phi Cn sg a) as (b & D & B & E); auto.
  destruct (C40_digby m np K0 G0 phi Cn sg' a') as (b' & D' & B' & E'); try lra; auto.
  rewrite E, E'. do 4 eexists. split; [reflexivity|]. split; [reflexivity|].
  assert (N1 := nu_1p K0 G0 HK HG). assert (N2 := nu_2p K0 G0 HK HG). assert (P := PI_RGT_0).
  assert (Q : 0 < 3 * PI * (1 - poisson K0 G0)) by pos.
  assert (Q2 : 0 < 2 * Cn * (1 - phi) * G0) by (repeat apply Rmult_lt_0_compat; lra).
  assert (L : b < b').
  { eapply digby_lt; [split; [exact Ha|exact La]| | |apply D; reflexivity|apply D'; reflexivity].
    - apply Rmult_le_compat_r; [left; apply Rinv_0_lt_compat; exact Q2|]. apply Rmult_le_compat_l; lra.
    - destruct S as [S|S]; [left; exact S|right]. apply Rmult_lt_compat_r; [apply Rinv_0_lt_compat; exact Q2|]. apply Rmult_lt_compat_l; lra. }
  assert (F : forall c, 0 < c -> 0 < Cn * (1 - phi) / c).
  { intros c Hc. apply Rdiv_lt_0_compat; [apply Rmult_lt_0_compat; lra|exact Hc]. }
  assert (F1 := F (12 * PI) ltac:(lra)). assert (F2 := F (20 * PI) ltac:(lra)).
  assert (J1 : 0 < 4 * G0 / (1 - poisson K0 G0)) by (apply Rdiv_lt_0_compat; lra).
  assert (J2 : 0 < 12 * G0 / (2 - poisson K0 G0)) by (apply Rdiv_lt_0_compat; lra).
  replace (4 * G0 * b / (1 - poisson K0 G0)) with (4 * G0 / (1 - poisson K0 G0) * b) by (field; lra).
  replace (4 * G0 * b' / (1 - poisson K0 G0)) with (4 * G0 / (1 - poisson K0 G0) * b') by (field; lra).
  replace (12 * G0 * a / (2 - poisson K0 G0)) with (12 * G0 / (2 - poisson K0 G0) * a) by (field; lra).
  replace (12 * G0 * a' / (2 - poisson K0 G0)) with (12 * G0 / (2 - poisson K0 G0) * a') by (field; lra).
  assert (U1 : 0 < 4 * G0 / (1 - poisson K0 G0) * b < 4 * G0 / (1 - poisson K0 G0) * b') by (split; [apply Rmult_lt_0_compat|apply Rmult_lt_compat_l]; lra).
  assert (U2 : 0 <= 12 * G0 / (2 - poisson K0 G0) * a <= 12 * G0 / (2 - poisson K0 G0) * a') by (split; [apply Rmult_le_pos|apply Rmult_le_compat_l]; lra).
  split; split; (apply Rmult_lt_0_compat || apply Rmult_lt_compat_l); lra.
Qed.
Print Assumptions C40_digby_monotone.
Theorem C40_unbonded_is_smooth_hertz_mindlin :
  forall m np K0 G0 phi Cn sg, roots_ok np -> 0 < K0 -> 0 < G0 -> 0 <= phi < 1 -> 0 < Cn -> 0 < sg ->
  exists K G, GM_Digby m np (Fin K0) (Fin G0) (Fin phi) (Fin Cn) (Fin sg) (Fin 0) = Ret ([Fin K], [Fin G]) /\
  GM_hertzmindlin m (Fin K0) (Fin G0) (Fin phi) (Fin Cn) (Fin sg) (Fin 0) = Ret (Fin K, Fin G).
Proof. exact Digby_unbonded. Qed.
Print Assumptions C40_unbonded_is_smooth_hertz_mindlin.
(** At zero pressure every root passes the filter: the caller gets three (equal) values instead of one. *)
Theorem C40_single_value_at_zero_pressure_refuted :
  forall m np K0 G0 phi Cn a, roots_ok np -> 0 < K0 -> 0 < G0 -> 0 <= phi < 1 -> 0 < Cn -> 0 <= a ->
  exists K G, GM_Digby m np (Fin K0) (Fin G0) (Fin phi) (Fin Cn) (Fin 0) (Fin a) =
    Ret ([Fin K; Fin K; Fin K], [Fin G; Fin G; Fin G]).
Proof. exact Digby_zero. Qed.
Print Assumptions C40_single_value_at_zero_pressure_refuted.
Example C40_nonvacuous : 0 < 37 /\ 0 < 44 /\ 0 <= 0.36 < 1 /\ 0 < 9 /\ 0 < 10 < 20 /\ 0 <= 0.01 < 0.02. Proof. lra. Qed.

(** ** C41: Norris-Johnson *)
Theorem C41_vti_matrix :
  forall m K0 G0 n phi e ea, 0 < K0 -> 0 < G0 -> 0 < n -> 0 <= phi < 1 -> e < 0 -> ea < 0 ->
  exists c11 c33 c13 c44 c66 s33 s11 u33 u11 w33 w11,
    let C := [[Fin c11; Fin (c11 - 2 * c66); Fin c13; #0; #0; #0]; [Fin (c11 - 2 * c66); Fin c11; Fin c13; #0; #0; #0];
              [Fin c13; Fin c13; Fin c33; #0; #0; #0]; [#0; #0; #0; Fin c44; #0; #0]; [#0; #0; #0; #0; Fin c44; #0];
              [#0; #0; #0; #0; #0; Fin c66]]%fl in
    GM_johnson m (Fin K0) (Fin G0) (Fin n) (Fin phi) (Fin e) (Fin ea) "together" = Ret (C, Fin s33, Fin s11) /\
    GM_johnson m (Fin K0) (Fin G0) (Fin n) (Fin phi) (Fin e) (Fin ea) "uni_iso" = Ret (C, Fin u33, Fin u11) /\
    GM_johnson m (Fin K0) (Fin G0) (Fin n) (Fin phi) (Fin e) (Fin ea) "iso-uni" = Ret (C, Fin w33, Fin w11) /\
    s33 + 2 * s11 = u33 + 2 * u11.
Proof.
  intros m K0 G0 n phi e ea HK HG Hn Hp He Hea.
  exists (j11 K0 G0 n phi e ea), (j33 K0 G0 n phi e ea), (j13 K0 G0 n phi e ea), (j44 K0 G0 n phi e ea), (j66 K0 G0 n phi e ea),
    (js33 K0 G0 n phi e ea), (js11 K0 G0 n phi e ea), (js33u K0 G0 n phi e ea), (js11u K0 G0 n phi e ea),
    (js33i K0 G0 n phi e ea), (js11i K0 G0 n phi e ea).
  cbv zeta. rewrite !johnson_fin by auto. simpl String.eqb. cbv iota. do 3 (split; [reflexivity|]). apply mean_same; auto.
Qed.
Print Assumptions C41_vti_matrix.
(** At equal strains the code's integrals are exact and four of the five moduli are the theory's. *)
Theorem C41_equal_strains :
  forall m K0 G0 n phi e path, 0 < K0 -> 0 < G0 -> 0 < n -> 0 <= phi < 1 -> e < 0 ->
  path = "together"%string \/ path = "uni_iso"%string \/ path = "iso-uni"%string ->
  exists C s33 s11 c11 c12, GM_johnson m (Fin K0) (Fin G0) (Fin n) (Fin phi) (Fin e) (Fin e) path = Ret (C, s33, s11) /\
    c12 = c11 - 2 * nj_C66 K0 G0 n phi e 1 /\
    C = [[Fin c11; Fin c12; Fin (nj_C13 K0 G0 n phi e 1); #0; #0; #0]; [Fin c12; Fin c11; Fin (nj_C13 K0 G0 n phi e 1); #0; #0; #0];
         [Fin (nj_C13 K0 G0 n phi e 1); Fin (nj_C13 K0 G0 n phi e 1); Fin (nj_C33 K0 G0 n phi e 1); #0; #0; #0];
         [#0; #0; #0; Fin (nj_C44 K0 G0 n phi e 1); #0; #0]; [#0; #0; #0; #0; Fin (nj_C44 K0 G0 n phi e 1); #0];
         [#0; #0; #0; #0; #0; Fin (nj_C66 K0 G0 n phi e 1)]]%fl.
Proof.
  intros m K0 G0 n phi e path HK HG Hn Hp He P.
  destruct (j_equal K0 G0 n phi e HK HG He) as (E1 & E2 & E3 & E4).
  rewrite johnson_fin by auto. rewrite <- E1, <- E2, <- E3, <- E4.
  destruct P as [P|[P|P]]; subst path; simpl String.eqb; cbv iota;
    (do 3 eexists; exists (j11 K0 G0 n phi e e), (j11 K0 G0 n phi e e - 2 * j66 K0 G0 n phi e e);
     split; [reflexivity|]; split; [reflexivity|]; reflexivity).
Qed.
Print Assumptions C41_equal_strains.
(** At any strains: the code misplaces a parenthesis in the first contact integral, which puts it off by [d]; the
    results are the theory's plus multiples of [d], except C11 (a truncated expansion, also misprinted) and the
    transverse stress of 'iso-uni'. [d] vanishes only at equal strains. *)
Theorem C41_deviation_from_theory :
  forall m K0 G0 n phi e ea, 0 < K0 -> 0 < G0 -> 0 < n -> 0 <= phi < 1 -> e < 0 -> ea < 0 ->
  let al := sqrt (e / ea) in
  let d := al^2 / 2 * ln ((al + sqrt (1 + al^2)) / (1 + sqrt (1 + al^2))) in
  let g := nj_gamma K0 G0 n phi e / al in
  let B := nj_B K0 G0 in let C := nj_C K0 G0 in let Cn := nj_Cn K0 G0 in let Ct := nj_Ct K0 G0 in
  let S := (1 - phi) * n / (4 * PI) in let S3 := S * (- ea * sqrt (- ea)) in
  let k := 3 * al^2 / 4 + al^4 / 8 in
  let A := nj_across (- e) (- ea) in
  let s33 p := nj_sigma33 p K0 G0 n phi (- e) (- ea) in let s11 p := nj_sigma11 p K0 G0 n phi (- e) (- ea) in
  (d = 0 <-> e = ea) /\
  exists c11 c33 c13 c44 c66,
    c11 = g * (4 * B / 3 + 2 * C / 5 + al^2 * (2 * B / 15 + C / 35)) /\
    c33 = nj_C33 K0 G0 n phi e al + g * d * al^2 * (C * al^2 / 4 - B) /\
    c13 = nj_C13 K0 G0 n phi e al - g * d * C * (al^2 / 4 + al^4 / 8) /\
    c44 = nj_C44 K0 G0 n phi e al + g * d * (B / 2 * (1 - al^2 / 4) - C * (al^2 / 4 + al^4 / 8)) /\
    c66 = nj_C66 K0 G0 n phi e al + g * d * (B * (1 + al^2 / 4) + C / 4 * (1 + al^2 / 2 + al^4 / 8)) /\
    let M := [[Fin c11; Fin (c11 - 2 * c66); Fin c13; #0; #0; #0]; [Fin (c11 - 2 * c66); Fin c11; Fin c13; #0; #0; #0];
              [Fin c13; Fin c13; Fin c33; #0; #0; #0]; [#0; #0; #0; Fin c44; #0; #0]; [#0; #0; #0; #0; Fin c44; #0];
              [#0; #0; #0; #0; #0; Fin c66]]%fl in
    let johnson p := GM_johnson m (Fin K0) (Fin G0) (Fin n) (Fin phi) (Fin e) (Fin ea) (nj_name p) in
    johnson Together = Ret (M, Fin (s33 Together + 2 * S3 * d * (Ct * (al^2 / 4 + al^4 / 8) + Cn * (al^4 / 8))),
                               Fin (s11 Together - S3 * d * (Ct * (al^2 / 4 + al^4 / 8) + Cn * k))) /\
    johnson UniIso = Ret (M, Fin (s33 UniIso + 2 * S3 * d * (Cn * (al^4 / 8))), Fin (s11 UniIso - S3 * d * (Cn * k))) /\
    johnson IsoUni = Ret (M, Fin (s33 IsoUni - 2 * S3 * d * (Ct * k - Cn * (al^4 / 8))),
                             Fin (s11 IsoUni + S3 * d * k * Ct * (1 + Cn) + S * A * Cn * (1 + Ct))).
Proof.
  intros m K0 G0 n phi e ea HK HG Hn Hp He Hea al d g B C Cn Ct S S3 k A s33 s11.
  split. { assert (P := al_pos e ea He Hea). rewrite <- (al_one e ea He Hea). apply (off_zero (sqrt (e / ea)) P). }
  destruct (dev_moduli K0 G0 n phi e ea HK HG He Hea) as (M1 & M2 & M3 & M4 & M5).
  destruct (dev_stresses K0 G0 n phi e ea He Hea) as (D1 & D2 & D3 & D4 & D5 & D6).
  exists (j11 K0 G0 n phi e ea), (j33 K0 G0 n phi e ea), (j13 K0 G0 n phi e ea), (j44 K0 G0 n phi e ea), (j66 K0 G0 n phi e ea).
  split; [exact M1|]. split; [exact M2|]. split; [exact M3|]. split; [exact M4|]. split; [exact M5|].
  intros M johnson. unfold johnson. rewrite !johnson_fin by auto. simpl String.eqb. cbv iota.
  replace S3 with ((1 - phi) * n * (- ea * sqrt (- ea)) / (4 * PI)) by (unfold S3, S; field; apply PI_neq0).
  unfold s33, s11. rewrite D1, D2, D3, D4, D5, D6. split; [reflexivity|split; reflexivity].
Qed.
Print Assumptions C41_deviation_from_theory.
(** So at equal strains the stresses of the first two paths are the theory's, and only there is C66. *)
Theorem C41_equal_strains_stresses :
  forall m K0 G0 n phi e, 0 < K0 -> 0 < G0 -> 0 < n -> 0 <= phi < 1 -> e < 0 ->
  forall p, p <> IsoUni -> exists C,
  GM_johnson m (Fin K0) (Fin G0) (Fin n) (Fin phi) (Fin e) (Fin e) (nj_name p) =
  Ret (C, Fin (nj_sigma33 p K0 G0 n phi (- e) (- e)), Fin (nj_sigma11 p K0 G0 n phi (- e) (- e))).
Proof.
  intros m K0 G0 n phi e HK HG Hn Hp He p N.
  destruct (C41_deviation_from_theory m K0 G0 n phi e e HK HG Hn Hp He He) as (D & c11 & c33 & c13 & c44 & c66 & _ & _ & _ & _ & _ & E1 & E2 & _).
  cbv zeta in E1, E2. rewrite (proj2 D eq_refl) in E1, E2. eexists. destruct p; [rewrite E1|rewrite E2|contradiction]; reteq; ring.
Qed.
Print Assumptions C41_equal_strains_stresses.
Theorem C41_shear_exact_only_at_equal_strains :
  forall m K0 G0 n phi e ea, 0 < K0 -> 0 < G0 -> 2 * G0 <= 3 * K0 -> 0 < n -> 0 <= phi < 1 -> e < 0 -> ea < 0 ->
  exists r1 r2 r3 r4 r5 c66 s33 s11,
    GM_johnson m (Fin K0) (Fin G0) (Fin n) (Fin phi) (Fin e) (Fin ea) "together" = Ret ([r1; r2; r3; r4; r5; [#0; #0; #0; #0; #0; Fin c66]]%fl, s33, s11) /\
    (c66 = nj_C66 K0 G0 n phi e (sqrt (e / ea)) <-> e = ea).
Proof.
  intros m K0 G0 n phi e ea HK HG Hn2 Hn Hp He Hea. rewrite johnson_fin by auto. simpl String.eqb. cbv iota.
  do 5 eexists. exists (j66 K0 G0 n phi e ea). do 2 eexists. split; [unfold jmat; reflexivity|]. apply c66_iff; auto.
Qed.
Print Assumptions C41_shear_exact_only_at_equal_strains.
(** The path name documented as 'iso_uni' is not recognised, nor is any other unlisted string. *)
Theorem C41_path_names_refuted :
  forall m K0 G0 n phi e ea path, 0 < K0 -> 0 < G0 -> 0 < n -> 0 <= phi < 1 -> e < 0 -> ea < 0 ->
  path <> "together"%string -> path <> "uni_iso"%string -> path <> "iso-uni"%string ->
  GM_johnson m (Fin K0) (Fin G0) (Fin n) (Fin phi) (Fin e) (Fin ea) path = Raise UnboundLocalError.
Proof.
  intros m K0 G0 n phi e ea path HK HG Hn Hp He Hea N1 N2 N3. rewrite johnson_fin by auto.
  apply String.eqb_neq in N1, N2, N3. rewrite N1, N2, N3. reflexivity.
Qed.
Print Assumptions C41_path_names_refuted.
(** The mean stress depends on the loading path for 'iso-uni' although it is path-independent in theory. *)
Theorem C41_iso_uni_mean_stress_refuted :
  forall m K0 G0 n phi e, 0 < K0 -> 0 < G0 -> 0 < n -> 0 <= phi < 1 -> e < 0 ->
  exists C s33 s11 w33 w11,
    GM_johnson m (Fin K0) (Fin G0) (Fin n) (Fin phi) (Fin e) (Fin e) "together" = Ret (C, Fin s33, Fin s11) /\
    GM_johnson m (Fin K0) (Fin G0) (Fin n) (Fin phi) (Fin e) (Fin e) "iso-uni" = Ret (C, Fin w33, Fin w11) /\
    w33 + 2 * w11 <> s33 + 2 * s11.
Proof.
  intros m K0 G0 n phi e HK HG Hn Hp He. rewrite !johnson_fin by auto. simpl String.eqb. cbv iota.
  do 5 eexists. do 2 (split; [reflexivity|]). apply mean_iso; auto.
Qed.
Print Assumptions C41_iso_uni_mean_stress_refuted.
(** Away from equal strains the moduli are not the theory's: C13 gets the wrong sign ... *)
Theorem C41_c13_sign_refuted :
  forall m K0 G0 n phi e ea, 0 < K0 -> 0 < G0 -> 2 * G0 < 3 * K0 -> 0 < n -> 0 <= phi < 1 -> e < 0 -> ea < 0 -> 16 * (- ea) <= - e ->
  exists r1 r2 r4 r5 r6 c13 x y s33 s11,
    GM_johnson m (Fin K0) (Fin G0) (Fin n) (Fin phi) (Fin e) (Fin ea) "together" = Ret ([r1; r2; [Fin c13; x; y; #0; #0; #0]; r4; r5; r6]%fl, s33, s11) /\
    c13 < 0 < nj_C13 K0 G0 n phi e (sqrt (e / ea)).
Proof.
  intros m K0 G0 n phi e ea HK HG Hn2 Hn Hp He Hea S. rewrite johnson_fin by auto. simpl String.eqb. cbv iota.
  do 5 eexists. exists (j13 K0 G0 n phi e ea). do 4 eexists. split; [unfold jmat; reflexivity|].
  split; [apply j13_neg; auto|]. apply nj_C13_pos; auto. apply sqrt_lt_R0, q_pos; auto.
Qed.
Print Assumptions C41_c13_sign_refuted.
(** ... and C11 exceeds the theory's value by any factor when the axial strain is small. *)
Theorem C41_c11_unbounded_refuted :
  forall m K0 G0 n phi e k, 0 < K0 -> 0 < G0 -> 2 * G0 <= 3 * K0 -> 0 < n -> 0 <= phi < 1 -> e < 0 -> 0 < k ->
  exists d, 0 < d /\ forall ea, - d < ea < 0 ->
  exists c11 r row2 row3 row4 row5 row6 s33 s11,
    GM_johnson m (Fin K0) (Fin G0) (Fin n) (Fin phi) (Fin e) (Fin ea) "together" = Ret ([Fin c11 :: r; row2; row3; row4; row5; row6], s33, s11) /\
    k * nj_C11 K0 G0 n phi e (sqrt (e / ea)) < c11.
Proof.
  intros m K0 G0 n phi e k HK HG Hn2 Hn Hp He Hk. destruct (j11_unbounded K0 G0 n phi e k) as (d & D & F); auto.
  exists d. split; [exact D|]. intros ea L. rewrite johnson_fin by (auto; lra). simpl String.eqb. cbv iota.
  exists (j11 K0 G0 n phi e ea). do 8 eexists. split; [unfold jmat; reflexivity|]. apply F, L.
Qed.
Print Assumptions C41_c11_unbounded_refuted.
Example C41_nonvacuous : 2 * 44 < 3 * 37 /\ 0 < 9 /\ 0 <= 0.36 < 1 /\ -0.001 < 0 /\ -0.00001 < 0 /\ 16 * (- -0.00001) <= - -0.001. Proof. lra. Qed.

(** ** C42: patchy cement *)
(** The end members: a loose pack [(Ku, Gu)] and a cemented rock [(Kb, Gb)], contact cement up to the
    critical cement content [v_ci] and the modified upper bound beyond. *)
Definition pcm_end_members m sg K0 G0 phic v_cem v_ci Kc Gc Cn scheme f_ Ku Gu Kb Gb : Prop :=
  GM_hertzmindlin m (Fin K0) (Fin G0) (Fin phic) (Fin Cn) (Fin sg) (Fin f_) = Ret (Fin Ku, Fin Gu) /\
  (if Rle_dec v_cem v_ci then
     GM_contactcement m (Fin K0) (Fin G0) (Fin Kc) (Fin Gc) (Fin (phic - v_cem)) (Fin phic) (Fin Cn) scheme = Ret (Fin Kb, Fin Gb)
   else
     GM_MUHS m (Fin K0) (Fin G0) (Fin Kc) (Fin Gc) (Fin (phic - v_cem)) (Fin (phic - v_ci)) (Fin phic) (Fin Cn) scheme = Ret (Fin Kb, Fin Gb)) /\
  0 < Ku < Kb /\ 0 < Gu < Gb.
Lemma pcm_ends_cem m sg K0 G0 phic v_cem v_ci Kc Gc Cn scheme f_ Ku Gu Kb Gb :
  pcm_end_members m sg K0 G0 phic v_cem v_ci Kc Gc Cn scheme f_ Ku Gu Kb Gb -> cem_end m K0 G0 Kc Gc phic v_cem v_ci Cn scheme Kb Gb.
Proof. intros (_ & H & _). unfold cem_end. destruct Rle_dec; split; intros; (exact H || lra). Qed.

Theorem C42_pcm_limits :
  forall m sg K0 G0 phi phic v_cem v_ci Kc Gc Cn scheme f_ Ku Gu Kb Gb md md',
  pcm_end_members m sg K0 G0 phic v_cem v_ci Kc Gc Cn scheme f_ Ku Gu Kb Gb -> 0 < K0 -> 0 < G0 -> 0 <= phi <= phic -> 0 < phic ->
  let pcm f md := GM_pcm m (Fin f) (Fin sg) (Fin K0) (Fin G0) (Fin phi) (Fin phic) (Fin v_cem) (Fin v_ci) (Fin Kc) (Fin Gc) (Fin Cn) md scheme (Fin f_) in
  pcm 0 md = GM_softsand m (Fin K0) (Fin G0) (Fin phi) (Fin phic) (Fin Cn) (Fin sg) (Fin f_) /\
  pcm 1 md = pcm 1 md' /\
  pcm 1 md = Ret (Fin (walpole (zK Gb) (phi / phic) Kb K0), Fin (walpole (zG Kb Gb) (phi / phic) Gb G0)).
Proof.
  intros m sg K0 G0 phi phic v_cem v_ci Kc Gc Cn scheme f_ Ku Gu Kb Gb md md' H HK HG Hphi Hc pcm.
  assert (B := pcm_ends_cem _ _ _ _ _ _ _ _ _ _ _ _ _ _ _ _ H). destruct H as (U & _ & P1 & P2).
  split; [eapply pcm_f0; eauto; lra|].
  assert (Q : forall x, pcm 1 x = Ret (Fin (walpole (zK Gb) (phi / phic) Kb K0), Fin (walpole (zG Kb Gb) (phi / phic) Gb G0))).
  { intros x. eapply pcm_f1; eauto; lra. }
  rewrite !Q. split; reflexivity.
Qed.
Print Assumptions C42_pcm_limits.
(** Both versions are two Hashin-Shtrikman averages in sequence: the end members at the critical porosity
    weighted by the cemented fraction (upper bound: stiff, lower bound: soft), then the mineral. *)
Theorem C42_pcm_is_two_bounds :
  forall m sg K0 G0 phi phic v_cem v_ci Kc Gc Cn scheme f_ Ku Gu Kb Gb f,
  pcm_end_members m sg K0 G0 phic v_cem v_ci Kc Gc Cn scheme f_ Ku Gu Kb Gb -> 0 < K0 -> 0 < G0 -> 0 <= phi <= phic -> 0 < phic -> 0 <= f <= 1 ->
  let pcm md := GM_pcm m (Fin f) (Fin sg) (Fin K0) (Fin G0) (Fin phi) (Fin phic) (Fin v_cem) (Fin v_ci) (Fin Kc) (Fin Gc) (Fin Cn) md scheme (Fin f_) in
  let last Kp Gp := Ret (Fin (walpole (zK Gp) (phi / phic) Kp K0), Fin (walpole (zG Kp Gp) (phi / phic) Gp G0)) in
  exists Ks Gs Kl Gl,
    EM_HS m (Fin f) (Fin Kb) (Fin Ku) (Fin Gb) (Fin Gu) "upper" = Ret (Fin Ks, Fin Gs) /\
    EM_HS m (Fin f) (Fin Kb) (Fin Ku) (Fin Gb) (Fin Gu) "lower" = Ret (Fin Kl, Fin Gl) /\
    pcm "stiff"%string = last Ks Gs /\ (forall md, md <> "stiff"%string -> pcm md = last Kl Gl) /\
    (forall al, 0 <= al <= 1 ->
     GM_vpcm m (Fin al) (Fin f) (Fin sg) (Fin K0) (Fin G0) (Fin phi) (Fin phic) (Fin v_cem) (Fin v_ci) (Fin Kc) (Fin Gc) (Fin Cn) scheme (Fin f_)
     = last ((1 - al) * Ks + al * Kl) ((1 - al) * Gs + al * Gl)).
Proof.
  intros m sg K0 G0 phi phic v_cem v_ci Kc Gc Cn scheme f_ Ku Gu Kb Gb f H HK HG Hphi Hc Hf pcm last.
  assert (B := pcm_ends_cem _ _ _ _ _ _ _ _ _ _ _ _ _ _ _ _ H). destruct H as (U & _ & P1 & P2). destruct P1, P2.
  destruct (HS_walpole m f Kb Ku Gb Gu) as [E1 E2]; try lra.
  do 4 eexists. split; [exact E1|]. split; [exact (E2 "lower"%string ltac:(discriminate))|].
  split; [eapply pcm_stiff_fin; eauto|]. split; [intros; eapply pcm_soft_fin; eauto|].
  intros al Ha. erewrite vpcm_fin; eauto. unfold last, lastK, lastG, vK, vG.
  rewrite !(Rmult_comm (1 - al)), !(Rmult_comm al). reflexivity.
Qed.
Print Assumptions C42_pcm_is_two_bounds.
Theorem C42_soft_below_stiff :
  forall m sg K0 G0 phi phic v_cem v_ci Kc Gc Cn scheme f_ Ku Gu Kb Gb md f,
  pcm_end_members m sg K0 G0 phic v_cem v_ci Kc Gc Cn scheme f_ Ku Gu Kb Gb -> 0 < K0 -> 0 < G0 -> 0 <= phi <= phic -> 0 < phic ->
  md <> "stiff"%string -> 0 <= f <= 1 ->
  let pcm md := GM_pcm m (Fin f) (Fin sg) (Fin K0) (Fin G0) (Fin phi) (Fin phic) (Fin v_cem) (Fin v_ci) (Fin Kc) (Fin Gc) (Fin Cn) md scheme (Fin f_) in
  exists K G K' G', pcm md = Ret (Fin K, Fin G) /\ pcm "stiff"%string = Ret (Fin K', Fin G') /\ K <= K' /\ G <= G'.
Proof.
  intros m sg K0 G0 phi phic v_cem v_ci Kc Gc Cn scheme f_ Ku Gu Kb Gb md f H HK HG Hphi Hc N Hf pcm.
  assert (B := pcm_ends_cem _ _ _ _ _ _ _ _ _ _ _ _ _ _ _ _ H). destruct H as (U & _ & P1 & P2). destruct P1, P2.
  unfold pcm. erewrite pcm_soft_fin, pcm_stiff_fin; eauto. cbv zeta. do 4 eexists. do 2 (split; [reflexivity|]).
  destruct (soft_le_stiff Ku Gu Kb Gb ltac:(auto) ltac:(auto) ltac:(auto) ltac:(auto) f Hf).
  apply last_mono; auto.
  - split; [apply le_div_iff|apply div_le_iff]; lra.
  - split; [|auto]. assert (Z := zK_pos Gu ltac:(auto)). destruct (walpole_between (zK Gu) f Kb Ku); lra.
  - split; [|auto]. assert (Z := zG_pos Ku Gu ltac:(auto) ltac:(auto)). destruct (walpole_between (zG Ku Gu) f Gb Gu); lra.
Qed.
Print Assumptions C42_soft_below_stiff.
(** The varying model interpolates between the two and is monotone in its mixing weight and in the
    cemented fraction. *)
Theorem C42_vpcm :
  forall m sg K0 G0 phi phic v_cem v_ci Kc Gc Cn scheme f_ Ku Gu Kb Gb,
  pcm_end_members m sg K0 G0 phic v_cem v_ci Kc Gc Cn scheme f_ Ku Gu Kb Gb -> 0 < K0 -> 0 < G0 -> 0 <= phi <= phic -> 0 < phic ->
  let pcm f md := GM_pcm m (Fin f) (Fin sg) (Fin K0) (Fin G0) (Fin phi) (Fin phic) (Fin v_cem) (Fin v_ci) (Fin Kc) (Fin Gc) (Fin Cn) md scheme (Fin f_) in
  let vpcm al f := GM_vpcm m (Fin al) (Fin f) (Fin sg) (Fin K0) (Fin G0) (Fin phi) (Fin phic) (Fin v_cem) (Fin v_ci) (Fin Kc) (Fin Gc) (Fin Cn) scheme (Fin f_) in
  (forall f, 0 <= f <= 1 -> vpcm 0 f = pcm f "stiff"%string /\ vpcm 1 f = pcm f "soft"%string) /\
  (forall f f' al al', 0 <= f -> f <= f' -> f' <= 1 -> 0 <= al' -> al' <= al -> al <= 1 ->
     exists K G K' G', vpcm al f = Ret (Fin K, Fin G) /\ vpcm al' f' = Ret (Fin K', Fin G') /\ K <= K' /\ G <= G').
Proof.
  intros m sg K0 G0 phi phic v_cem v_ci Kc Gc Cn scheme f_ Ku Gu Kb Gb H HK HG Hphi Hc pcm vpcm.
  assert (B := pcm_ends_cem _ _ _ _ _ _ _ _ _ _ _ _ _ _ _ _ H). destruct H as (U & _ & P1 & P2). destruct P1, P2.
  split; [intros f Hf; split; [eapply vpcm_0; eauto|eapply vpcm_1; eauto; discriminate]|].
  intros. eapply vpcm_mono; eauto.
Qed.
Print Assumptions C42_vpcm.
(** A cemented end member as stiff as the loose one divides by zero. *)
Theorem C42_equal_end_members_refuted :
  forall sg K0 G0 phi phic v_cem v_ci Kc Gc Cn scheme f_ Ku Gu Gb f,
  GM_hertzmindlin PyFloat (Fin K0) (Fin G0) (Fin phic) (Fin Cn) (Fin sg) (Fin f_) = Ret (Fin Ku, Fin Gu) -> v_cem <= v_ci ->
  GM_contactcement PyFloat (Fin K0) (Fin G0) (Fin Kc) (Fin Gc) (Fin (phic - v_cem)) (Fin phic) (Fin Cn) scheme = Ret (Fin Ku, Fin Gb) ->
  GM_pcm PyFloat (Fin f) (Fin sg) (Fin K0) (Fin G0) (Fin phi) (Fin phic) (Fin v_cem) (Fin v_ci) (Fin Kc) (Fin Gc) (Fin Cn) "stiff" scheme (Fin f_)
    = Raise ZeroDivisionError.
Proof.
  intros sg K0 G0 phi phic v_cem v_ci Kc Gc Cn scheme f_ Ku Gu Gb f U L B. unfold GM_pcm.
  assert (E : GM_pcm_ends PyFloat (Fin sg) (Fin K0) (Fin G0) (Fin phic) (Fin v_cem) (Fin v_ci) (Fin Kc) (Fin Gc) (Fin Cn) scheme (Fin f_)
     = Ret ((Fin Ku, Fin Gu), (Fin Ku, Fin Gb))).
  { eapply ends_fin; eauto. split; intros; [exact B|lra]. }
  rewrite E. cbn [call]. simpl String.eqb. cbv iota. rewrite pcm_equal_raises. reflexivity.
Qed.
Print Assumptions C42_equal_end_members_refuted.
(** The dilution schedule: between 0 and [k] up to the reference stress, where it vanishes; it is only
    cut off beyond when the exponent is not an integer, and a scalar stress is not accepted. *)
Theorem C42_diluting :
  forall m k s0 ss e, 0 < s0 -> 0 < e -> Forall (fun s => 0 <= s) ss -> (forall z, e <> IZR z) ->
  GM_diluting m (Fin k) (Fin s0) (SArray (map Fin ss)) (Fin e) =
  Ret (map (fun s => Fin (if Rlt_dec s s0 then k * Rpower (1 - s / s0) e else 0)) ss).
Proof.
  intros m k s0 ss e H0 He F N. unfold GM_diluting. rewrite map_map. f_equal. apply map_ext_in. intros s I.
  rewrite Forall_forall in F. specialize (F s I). destruct (Rlt_dec s s0) as [L|L].
  - apply dil_elem; lra.
  - destruct (Rle_lt_or_eq_dec s0 s) as [L'|L']; [lra|apply dil_beyond; auto|subst; apply dil_ref; auto].
Qed.
Print Assumptions C42_diluting.
Theorem C42_diluting_range :
  forall m k s0 s s' e, 0 < s0 -> 0 < e -> 0 <= k -> 0 <= s -> s <= s' -> s' <= s0 ->
  exists x x', GM_diluting m (Fin k) (Fin s0) (SArray [Fin s; Fin s']) (Fin e) = Ret [Fin x; Fin x'] /\
    0 <= x' <= x /\ x <= k /\ (s = 0 -> x = k) /\ (s' = s0 -> x' = 0).
Proof.
  intros m k s0 s s' e H0 He Hk Hs L L'. unfold GM_diluting. cbn [map].
  assert (One : Rpower 1 e = 1) by (unfold Rpower; rewrite ln_1, Rmult_0_r, exp_0; reflexivity).
  assert (V : forall t, 0 <= t <= s0 -> exists y,
     fnan0 (Fin k * fpow NumPy (#1 - Fin t /n Fin s0) (Fin e))%fl = Fin y /\ 0 <= y /\
     (t < s0 -> y = k * Rpower (1 - t / s0) e) /\ (t = s0 -> y = 0)).
  { intros t T. destruct (Rlt_dec t s0) as [Q|Q].
    - rewrite dil_elem by lra. eexists. split; [reflexivity|]. split; [apply Rmult_le_pos; [lra|left; apply exp_pos]|]. split; [auto|lra].
    - replace t with s0 by lra. rewrite dil_ref by auto. exists 0. repeat split; lra. }
  destruct (V s ltac:(lra)) as (x & -> & X1 & X2 & X3). destruct (V s' ltac:(lra)) as (x' & -> & Y1 & Y2 & Y3).
  exists x, x'. split; [reflexivity|].
  assert (C : 0 <= s / s0) by (apply le_div_iff; lra).
  assert (X : x <= k /\ (s = 0 -> x = k)).
  { destruct (Rlt_dec s s0) as [Q|Q].
    - assert (B : s / s0 < 1) by (apply div_lt_iff; lra). rewrite (X2 Q). split.
      + rewrite <- (Rmult_1_r k) at 2. apply Rmult_le_compat_l; [lra|]. rewrite <- One. apply Rle_Rpower_l; lra.
      + intros ->. replace (1 - 0 / s0) with 1 by (field; lra). rewrite One. ring.
    - rewrite X3 by lra. lra. }
  destruct X as [X4 X5]. split; [split; [exact Y1|]|auto].
  destruct (Rlt_dec s' s0) as [Q|Q]; [|rewrite Y3 by lra; exact X1].
  assert (A : s / s0 <= s' / s0) by (apply Rmult_le_compat_r; [left; apply Rinv_0_lt_compat; lra|exact L]).
  assert (B : s' / s0 < 1) by (apply div_lt_iff; lra).
  rewrite X2, Y2 by lra. apply Rmult_le_compat_l; [lra|apply Rle_Rpower_l; lra].
Qed.
Print Assumptions C42_diluting_range.
Theorem C42_diluting_cutoff_refuted :
  forall m k s0 s, 0 < s0 -> s0 < s -> 0 < k ->
  exists x, GM_diluting m (Fin k) (Fin s0) (SArray [Fin s]) (Fin 2) = Ret [Fin x] /\ x = k * (s / s0 - 1)^2 /\ 0 < x.
Proof.
  intros m k s0 s H0 L Hk. unfold GM_diluting. cbn [map]. rewrite dil_beyond_sq by auto. eexists. split; [reflexivity|].
  split; [reflexivity|]. assert (1 < s / s0) by (apply lt_div_iff; lra). apply Rmult_lt_0_compat; [exact Hk|apply pow_lt; lra].
Qed.
Print Assumptions C42_diluting_cutoff_refuted.
Theorem C42_diluting_scalar_refuted :
  forall m k s0 s e, s0 <> 0 -> 0 < e -> GM_diluting m (Fin k) (Fin s0) (SScalar (Fin s)) (Fin e) = Raise TypeError.
Proof. exact dil_scalar_type. Qed.
Print Assumptions C42_diluting_scalar_refuted.
Example C42_nonvacuous : exists sg Ku Gu Kb Gb, 0 < sg /\
  pcm_end_members PyFloat sg 37 44 0.4 0.04 0.1 37 44 9 1 0 Ku Gu Kb Gb.
Proof.
  destruct C39_nonvacuous as (Kb & Gb & E & P1 & P2 & _).
  destruct (hm_small PyFloat 37 44 0.4 9 0 Kb Gb) as (sg & Ku & Gu & A & B & C & D); try lra.
  exists sg, Ku, Gu, Kb, Gb. split; [exact A|]. split; [exact B|]. split; [|lra].
  destruct Rle_dec; [|lra]. replace (0.4 - 0.04) with 0.36 by lra. exact E.
Qed.
