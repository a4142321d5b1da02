(** * P_Invert: curves that can be read backwards, and curves that cannot (C90).
    [reads_back F D E] (Spec26): [F] maps [D] one-to-one onto [E], and values close to each other belong to arguments close to each
    other. [part1], [part2]: the first and the second result of a call. *)
From Verif Require Import Fl RealLemmas M_Utils M_EM M_Fluid M_GM M_Perm M_Emp M_QI Spec Spec3 Spec5 Spec6 Spec16 Spec21 Spec26
  L_Utils L_EM1 L_EM5 L_EM6 L_Fluid1 L_Fluid7 L_GM1 L_GM2 L_GM4 L_QI L_Cross L_Emp L_Cont L_ContProg L_ContFns L_ContFns2 L_ContFns3 L_Invert P_Perm P_Emp P_GM P_QI.
Open Scope R_scope.

(** ** Walpole averages *)
Lemma wal_inv z f a b : 0 <= f <= 1 -> 0 < a + z -> 0 < b + z -> 0 < f / (a + z) + (1 - f) / (b + z).
Proof.
  intros Hf Ha Hb. destruct (Req_EM_T f 0) as [->|N].
  - unfold Rdiv; rewrite Rmult_0_l, Rplus_0_l, Rminus_0_r, Rmult_1_l. apply Rinv_0_lt_compat, Hb.
  - assert (0 < f / (a + z)) by (apply Rdiv_lt_0_compat; lra).
    assert (0 <= (1 - f) / (b + z)) by (apply Rmult_le_pos; [lra|left; apply Rinv_0_lt_compat, Hb]). lra.
Qed.
Lemma walpole_strict z f g a b : 0 <= f -> f < g -> g <= 1 -> 0 < a + z -> 0 < b + z -> b < a -> walpole z f a b < walpole z g a b.
Proof.
  intros Hf Hfg Hg Ha Hb H. unfold walpole. assert (P := wal_inv z g a b ltac:(lra) Ha Hb).
  assert (/ (a + z) < / (b + z)) by (apply Rinv_lt_contravar; [apply Rmult_lt_0_compat|]; lra).
  assert (g / (a + z) + (1 - g) / (b + z) < f / (a + z) + (1 - f) / (b + z)).
  { unfold Rdiv. assert (0 < (g - f) * (/ (b + z) - / (a + z))) by (apply Rmult_lt_0_compat; lra). lra. }
  assert (/ (f / (a + z) + (1 - f) / (b + z)) < / (g / (a + z) + (1 - g) / (b + z))).
  { apply Rinv_lt_contravar; [apply Rmult_lt_0_compat|]; lra. }
  lra.
Qed.
Lemma walpole_onto z a b y : 0 < a + z -> 0 < b + z -> b < a -> b <= y <= a -> exists f, 0 <= f <= 1 /\ walpole z f a b = y.
Proof.
  intros Ha Hb H Y. set (A := / (a + z)). set (B := / (b + z)). set (V := / (y + z)).
  assert (AB : A < B) by (apply Rinv_lt_contravar; [apply Rmult_lt_0_compat|]; lra).
  assert (AV : A <= V) by (apply Rinv_le_contravar; lra). assert (VB : V <= B) by (apply Rinv_le_contravar; lra).
  exists ((B - V) / (B - A)). split.
  - split; [apply le_div_iff|apply div_le_iff]; lra.
  - unfold walpole, Rdiv at 1 3. fold A B. replace ((B - V) / (B - A) * A + (1 - (B - V) / (B - A)) * B) with V by (field; lra).
    unfold V. rewrite Rinv_inv. ring.
Qed.
(** From [b] at 0 to the stiffer [a] at 1. *)
Lemma wal_up F z a b : 0 < a + z -> 0 < b + z -> b < a -> (forall f, 0 <= f <= 1 -> F (Fin f) = Ret (Fin (walpole z f a b))) ->
  reads_back F (seg 0 1) (seg b a).
Proof.
  intros Ha Hb H HF. apply (reads_back_onto F _ _ (fun f => walpole z f a b)); auto using convex_seg.
  - left. intros f g X Y L. unfold seg in *. apply walpole_strict; lra.
  - intros f X. apply walpole_between; auto; lra.
  - intros y Y. destruct (walpole_onto z a b y Ha Hb H Y) as (f & Hf & E). exists f. split; auto.
Qed.
(** From the stiffer [b] at 0 to [a] at [c]. *)
Lemma wal_down F z a b c : 0 < c -> 0 < a + z -> 0 < b + z -> a < b -> (forall x, 0 <= x <= c -> F (Fin x) = Ret (Fin (walpole z (x / c) a b))) ->
  reads_back F (seg 0 c) (seg a b).
Proof.
  intros Hc Ha Hb H HF. apply (reads_back_onto F _ _ (fun x => walpole z (x / c) a b)); auto using convex_seg.
  - right. intros x y X Y L. unfold seg in *. rewrite (walpole_sym z (y / c)), (walpole_sym z (x / c)).
    assert (0 <= x / c) by (apply le_div_iff; lra). assert (y / c <= 1) by (apply div_le_iff; lra).
    assert (x / c < y / c) by (apply Rmult_lt_compat_r; [apply Rinv_0_lt_compat|]; lra). apply walpole_strict; lra.
  - intros x X. unfold seg in *. rewrite walpole_sym. assert (0 <= x / c) by (apply le_div_iff; lra). assert (x / c <= 1) by (apply div_le_iff; lra).
    apply walpole_between; lra.
  - intros y Y. destruct (walpole_onto z b a y Hb Ha H Y) as (f & Hf & E). exists ((1 - f) * c). split.
    + unfold seg. split; [apply Rmult_le_pos; lra|]. assert (0 <= f * c) by (apply Rmult_le_pos; lra). lra.
    + replace ((1 - f) * c / c) with (1 - f) by (field; lra). rewrite <- walpole_sym. exact E.
Qed.

(** Porosity ray a modulus of the critical porosity model. *)
Theorem C90_critical_porosity : forall m K0 G0 phic, 0 < phic -> 0 < K0 -> 0 < G0 ->
  reads_back (fun phi => part1 (EM_cripor m (Fin K0) (Fin G0) phi (Fin phic))) (seg 0 phic) (seg 0 K0) /\
  reads_back (fun phi => part2 (EM_cripor m (Fin K0) (Fin G0) phi (Fin phic))) (seg 0 phic) (seg 0 G0).
Proof.
  intros m K0 G0 phic Hp HK HG. destruct (cripor_facts m K0 G0 phic Hp HK HG) as (Kd & Gd & E & K0' & G0' & Kc & Gc & M & A & Q & _).
  assert (AG : forall p q t, Gd ((1 - t) * p + t * q) = (1 - t) * Gd p + t * Gd q).
  { intros p q t. apply Rmult_eq_reg_r with K0; [|lra]. rewrite <- Q, A, Rmult_plus_distr_r, Rmult_plus_distr_r, !Rmult_assoc, !Q. reflexivity. }
  assert (W : forall (g : R -> R) M0 F, (forall p q, p < q -> g q < g p) -> (forall p q t, g ((1 - t) * p + t * q) = (1 - t) * g p + t * g q) -> g 0 = M0 -> g phic = 0 -> 0 < M0 ->
     (forall x, F (Fin x) = Ret (Fin (g x))) -> reads_back F (seg 0 phic) (seg 0 M0)).
  { intros g M0 F D L E0 Ec P HF. apply (reads_back_onto F _ _ g); auto using convex_seg.
    - right. intros x y _ _. apply D.
    - intros x X. unfold seg in *. split.
      + destruct (Req_dec x phic) as [->|N]; [lra|]. specialize (D x phic ltac:(lra)). lra.
      + destruct (Req_dec x 0) as [->|N]; [lra|]. specialize (D 0 x ltac:(lra)). lra.
    - intros y Y. unfold seg in *. exists ((1 - (M0 - y) / M0) * 0 + (M0 - y) / M0 * phic). split.
      + assert (0 <= (M0 - y) / M0) by (apply le_div_iff; lra). assert ((M0 - y) / M0 <= 1) by (apply div_le_iff; lra).
        assert (0 <= (M0 - y) / M0 * phic) by (apply Rmult_le_pos; lra). assert (0 <= (1 - (M0 - y) / M0) * phic) by (apply Rmult_le_pos; lra). lra.
      + rewrite L, E0, Ec. field. lra. }
  split; [apply (W Kd)|apply (W Gd)]; auto; try (intros x; rewrite E; reflexivity); intros p q L; apply M, L.
Qed.
Print Assumptions C90_critical_porosity.

(** The fraction of the stiffer phase from either modulus of either Hashin-Shtrikman bound. *)
Theorem C90_hashin_shtrikman : forall m K1 K2 G1 G2 bound, 0 < K2 < K1 -> 0 < G2 < G1 ->
  reads_back (fun f => part1 (EM_HS m f (Fin K1) (Fin K2) (Fin G1) (Fin G2) bound)) (seg 0 1) (seg K2 K1) /\
  reads_back (fun f => part2 (EM_HS m f (Fin K1) (Fin K2) (Fin G1) (Fin G2) bound)) (seg 0 1) (seg G2 G1).
Proof.
  intros m K1 K2 G1 G2 bound HK HG.
  assert (A1 := zK_pos G1 ltac:(lra)). assert (A2 := zK_pos G2 ltac:(lra)). assert (A3 := zG_pos K1 G1 ltac:(lra) ltac:(lra)). assert (A4 := zG_pos K2 G2 ltac:(lra) ltac:(lra)).
  assert (E : forall f, 0 <= f <= 1 -> EM_HS m (Fin f) (Fin K1) (Fin K2) (Fin G1) (Fin G2) bound =
     if string_dec bound "upper" then Ret (Fin (walpole (zK G1) f K1 K2), Fin (walpole (zG K1 G1) f G1 G2))
     else Ret (Fin (walpole (zK G2) f K1 K2), Fin (walpole (zG K2 G2) f G1 G2))).
  { intros f Hf. destruct (HS_walpole m f K1 K2 G1 G2) as (U & L); try lra. destruct (string_dec bound "upper") as [->|N]; auto. }
  split; destruct (string_dec bound "upper") as [D|D].
  - apply (wal_up _ (zK G1)); try lra. intros f Hf. rewrite E by exact Hf. reflexivity.
  - apply (wal_up _ (zK G2)); try lra. intros f Hf. rewrite E by exact Hf. reflexivity.
  - apply (wal_up _ (zG K1 G1)); try lra. intros f Hf. rewrite E by exact Hf. reflexivity.
  - apply (wal_up _ (zG K2 G2)); try lra. intros f Hf. rewrite E by exact Hf. reflexivity.
Qed.
Print Assumptions C90_hashin_shtrikman.

(** Porosity from either modulus of a soft or stiff sand whose grain pack is softer than the mineral. *)
Theorem C90_sands : forall m K0 G0 phic Cn sg f Kh Gh, 0 < K0 -> 0 < G0 -> 0 < phic < 1 -> 0 < Cn -> 0 < sg -> 0 <= f <= 1 ->
  GM_hertzmindlin m (Fin K0) (Fin G0) (Fin phic) (Fin Cn) (Fin sg) (Fin f) = Ret (Fin Kh, Fin Gh) -> Kh < K0 -> Gh < G0 ->
  forall sand, sand = GM_softsand m \/ sand = GM_stiffsand m ->
  reads_back (fun phi => part1 (sand (Fin K0) (Fin G0) phi (Fin phic) (Fin Cn) (Fin sg) (Fin f))) (seg 0 phic) (seg Kh K0) /\
  reads_back (fun phi => part2 (sand (Fin K0) (Fin G0) phi (Fin phic) (Fin Cn) (Fin sg) (Fin f))) (seg 0 phic) (seg Gh G0).
Proof.
  intros m K0 G0 phic Cn sg f Kh Gh HK HG Hp HC Hs Hf E L1 L2 sand S.
  rewrite hertzmindlin_fin in E by (auto; lra). cbv zeta in E. injection E as E1 E2. rewrite E1 in E2.
  assert (X : 0 < Kh) by (rewrite <- E1; apply cbrt_pos, K3_pos; auto; lra).
  assert (Y : 0 < Gh) by (rewrite <- E2; apply Rmult_lt_0_compat; [apply GK_pos; auto|exact X]).
  assert (A1 := zK_pos Gh Y). assert (A2 := zK_pos G0 HG). assert (A3 := zG_pos Kh Gh X Y). assert (A4 := zG_pos K0 G0 HK HG).
  destruct S as [->| ->].
  - split; [apply (wal_down _ (zK Gh))|apply (wal_down _ (zG Kh Gh))]; try lra; intros x Hx; rewrite softsand_fin by (auto; lra); cbv zeta; rewrite E1, E2; reflexivity.
  - split; [apply (wal_down _ (zK G0))|apply (wal_down _ (zG K0 G0))]; try lra; intros x Hx; rewrite stiffsand_fin by (auto; lra); cbv zeta; rewrite E1, E2; reflexivity.
Qed.
Print Assumptions C90_sands.

(** Porosity of a sand of constant cement, below the porosity [phi_b] where the cemented end member (softer than the mineral) lies. *)
Theorem C90_constant_cement : forall m K0 G0 Kc Gc phi_b phic Cn scheme Kb Gb,
  GM_contactcement m (Fin K0) (Fin G0) (Fin Kc) (Fin Gc) (Fin phi_b) (Fin phic) (Fin Cn) scheme = Ret (Fin Kb, Fin Gb) ->
  0 < Kb < K0 -> 0 < Gb < G0 -> 0 < phi_b ->
  reads_back (fun phi => part1 (GM_constantcement m (Fin phi_b) (Fin K0) (Fin G0) (Fin Kc) (Fin Gc) phi (Fin phic) (Fin Cn) scheme)) (seg 0 phi_b) (seg Kb K0) /\
  reads_back (fun phi => part2 (GM_constantcement m (Fin phi_b) (Fin K0) (Fin G0) (Fin Kc) (Fin Gc) phi (Fin phic) (Fin Cn) scheme)) (seg 0 phi_b) (seg Gb G0) /\
  reads_back (fun phi => part1 (GM_MUHS m (Fin K0) (Fin G0) (Fin Kc) (Fin Gc) phi (Fin phi_b) (Fin phic) (Fin Cn) scheme)) (seg 0 phi_b) (seg Kb K0) /\
  reads_back (fun phi => part2 (GM_MUHS m (Fin K0) (Fin G0) (Fin Kc) (Fin Gc) phi (Fin phi_b) (Fin phic) (Fin Cn) scheme)) (seg 0 phi_b) (seg Gb G0).
Proof.
  intros m K0 G0 Kc Gc phi_b phic Cn scheme Kb Gb E HK HG Hb.
  assert (A1 := zK_pos Gb ltac:(lra)). assert (A2 := zK_pos G0 ltac:(lra)). assert (A3 := zG_pos Kb Gb ltac:(lra) ltac:(lra)). assert (A4 := zG_pos K0 G0 ltac:(lra) ltac:(lra)).
  split; [|split; [|split]].
  all: try (apply (wal_down _ (zK Gb) Kb K0 phi_b); [lra..|intros x Hx; rewrite (constantcement_fin m K0 G0 Kc Gc x phi_b phic Cn scheme Kb Gb E) by lra; reflexivity]).
  all: try (apply (wal_down _ (zG Kb Gb) Gb G0 phi_b); [lra..|intros x Hx; rewrite (constantcement_fin m K0 G0 Kc Gc x phi_b phic Cn scheme Kb Gb E) by lra; reflexivity]).
  all: try (apply (wal_down _ (zK G0) Kb K0 phi_b); [lra..|intros x Hx; rewrite (MUHS_fin m K0 G0 Kc Gc x phi_b phic Cn scheme Kb Gb E) by lra; reflexivity]).
  all: try (apply (wal_down _ (zG K0 G0) Gb G0 phi_b); [lra..|intros x Hx; rewrite (MUHS_fin m K0 G0 Kc Gc x phi_b phic Cn scheme Kb Gb E) by lra; reflexivity]).
Qed.
Print Assumptions C90_constant_cement.

(** Porosity, hence the volume of cement, from either modulus of a contact-cemented pack, in the range of the fits. *)
Theorem C90_contact_cement : forall m K0 G0 Kc Gc phi1 phic Cn scheme K1 G1 Kn Gn,
  0 < K0 -> 0 < G0 -> 0 < Kc -> 0 < Gc -> 2 * G0 <= 3 * K0 -> phi1 < phic -> phic < 1 -> 0 < Cn ->
  let a := cement_radius scheme (phic - phi1) phic Cn in
  a <= 1 -> a^2 <= 16 * lambda_n K0 G0 Kc Gc -> a^2 <= 11 * lambda_t G0 Gc ->
  GM_contactcement m (Fin K0) (Fin G0) (Fin Kc) (Fin Gc) (Fin phi1) (Fin phic) (Fin Cn) scheme = Ret (Fin K1, Fin G1) ->
  GM_contactcement m (Fin K0) (Fin G0) (Fin Kc) (Fin Gc) (Fin phic) (Fin phic) (Fin Cn) scheme = Ret (Fin Kn, Fin Gn) ->
  reads_back (fun phi => part1 (GM_contactcement m (Fin K0) (Fin G0) (Fin Kc) (Fin Gc) phi (Fin phic) (Fin Cn) scheme)) (seg phi1 phic) (seg Kn K1) /\
  reads_back (fun phi => part2 (GM_contactcement m (Fin K0) (Fin G0) (Fin Kc) (Fin Gc) phi (Fin phic) (Fin Cn) scheme)) (seg phi1 phic) (seg Gn G1).
Proof.
  intros m K0 G0 Kc Gc phi1 phic Cn scheme K1 G1 Kn Gn HK HG HKc HGc Hn L Hp HC a A1 A2 A3 E1 En.
  set (r := fun phi => cement_radius scheme (phic - phi) phic Cn).
  set (gk := fun phi => ccK K0 G0 Kc Gc phic Cn (r phi)). set (gg := fun phi => ccG K0 G0 Kc Gc phic Cn (r phi)).
  assert (HF : forall m phi, seg phi1 phic phi -> GM_contactcement m (Fin K0) (Fin G0) (Fin Kc) (Fin Gc) (Fin phi) (Fin phic) (Fin Cn) scheme = Ret (Fin (gk phi), Fin (gg phi))).
  { intros m' phi X. unfold seg in X. rewrite contactcement_fin by lra. reflexivity. }
  rewrite HF in E1 by (unfold seg; lra). rewrite HF in En by (unfold seg; lra). injection E1 as <- <-. injection En as <- <-.
  assert (RM : forall x y, seg phi1 phic x -> seg phi1 phic y -> x < y -> 0 <= r y /\ r y < r x /\ r x <= a).
  { intros x y X Y LT. unfold seg in *. split; [apply radius_nonneg|]. split; [apply radius_incr; lra|].
    destruct (Req_dec x phi1) as [->|N]; [right; reflexivity|]. left. apply radius_incr; lra. }
  assert (MM : forall x y, seg phi1 phic x -> seg phi1 phic y -> x < y -> gk y < gk x /\ gg y < gg x).
  { intros x y X Y LT. destruct (RM x y X Y LT) as (R1 & R2 & R3).
    assert (S2 : (r x)^2 <= a^2) by (apply pow_incr; lra).
    destruct (cc_incr K0 G0 Kc Gc phic Cn HK HG HKc HGc Hp HC Hn (r y) (r x) R1 R2) as (P & Q); try lra. split; assumption. }
  assert (CO : cement_ok K0 G0 Gc) by (unfold cement_ok; repeat split; lra).
  assert (RC : rcont (seg phi1 phic) gk /\ rcont (seg phi1 phic) gg).
  { assert (SC : exists s', (s' = 1 \/ s' = 2)%Z /\ Z.eqb s' 1 = Z.eqb scheme 1).
    { destruct (Z.eqb scheme 1) eqn:Es; [exists 1%Z|exists 2%Z]; split; auto. }
    destruct SC as (s' & S12 & Es).
    assert (HF' : forall phi, seg phi1 phic phi -> GM_contactcement m (Fin K0) (Fin G0) (Fin Kc) (Fin Gc) (Fin phi) (Fin phic) (Fin Cn) s' = Ret (Fin (gk phi), Fin (gg phi))).
    { intros phi X. unfold seg in X. rewrite contactcement_fin by lra. unfold gk, gg, r, cement_radius. rewrite Es. reflexivity. }
    split; [apply (curve_cont (fun l => match l with [K0; G0; Kc; Gc; phi; phic; Cn] => out2 (GM_contactcement m K0 G0 Kc Gc phi phic Cn s') | _ => Unknown end)
       (fun l => match l with [K0; G0; Kc; Gc; phi; phic; Cn] => cement_ok K0 G0 Gc | _ => False end) [K0; G0; Kc; Gc] [phic; Cn] 0)
      |apply (curve_cont (fun l => match l with [K0; G0; Kc; Gc; phi; phic; Cn] => out2 (GM_contactcement m K0 G0 Kc Gc phi phic Cn s') | _ => Unknown end)
       (fun l => match l with [K0; G0; Kc; Gc; phi; phic; Cn] => cement_ok K0 G0 Gc | _ => False end) [K0; G0; Kc; Gc] [phic; Cn] 1)].
    1,4: destruct S12 as [->| ->]; [apply cont_GM_contactcement_1|apply cont_GM_contactcement_2].
    1,3: intros; exact CO.
    all: intros x X; exists [gk x; gg x]; cbn [app map]; rewrite HF' by exact X; split; reflexivity. }
  split.
  - apply (seg_decr _ phi1 phic gk); [lra| |apply RC|intros x y X Y LT; apply MM; assumption]. intros x X. rewrite HF by exact X. reflexivity.
  - apply (seg_decr _ phi1 phic gg); [lra| |apply RC|intros x y X Y LT; apply MM; assumption]. intros x X. rewrite HF by exact X. reflexivity.
Qed.
Print Assumptions C90_contact_cement.

(** Effective pressure from either modulus of a grain pack. *)
Theorem C90_pack_pressure : forall m K0 G0 phic Cn f, 0 < K0 -> 0 < G0 -> 0 <= phic < 1 -> 0 < Cn -> 0 <= f <= 1 ->
  forall pack, pack = GM_hertzmindlin m \/ pack = GM_Walton m ->
  reads_back (fun sg => part1 (pack (Fin K0) (Fin G0) (Fin phic) (Fin Cn) sg (Fin f))) (ray 0) (ray 0) /\
  reads_back (fun sg => part2 (pack (Fin K0) (Fin G0) (Fin phic) (Fin Cn) sg (Fin f))) (ray 0) (ray 0).
Proof.
  intros m K0 G0 phic Cn f HK HG Hp HC Hf pack HP.
  assert (HF : forall sg, 0 <= sg -> pack (Fin K0) (Fin G0) (Fin phic) (Fin Cn) (Fin sg) (Fin f) =
     Ret (Fin (cbrt (hertz_K3 K0 G0 phic Cn (sg / 1000))), Fin (hertz_GK K0 G0 f * cbrt (hertz_K3 K0 G0 phic Cn (sg / 1000))))).
  { intros sg Hs. destruct HP as [->| ->]; [|rewrite walton_hm by auto]; rewrite hertzmindlin_fin by auto; reflexivity. }
  assert (Q := GK_pos K0 G0 HK HG f Hf).
  set (c := hertz_K3 K0 G0 phic Cn 1). assert (Pc : 0 < c) by (apply K3_pos; auto; lra).
  assert (EC : forall sg, hertz_K3 K0 G0 phic Cn (sg / 1000) = c * (sg / 1000)) by (intros; unfold c, hertz_K3, Rdiv; ring).
  assert (ON : forall y, 0 <= y -> 0 <= y^3 / c * 1000 /\ cbrt (hertz_K3 K0 G0 phic Cn (y^3 / c * 1000 / 1000)) = y).
  { intros y Y. assert (0 <= y^3) by (apply pow_le, Y). assert (0 <= y^3 / c) by (apply Rmult_le_pos; [|left; apply Rinv_0_lt_compat]; lra). split; [lra|].
    rewrite EC. apply cbrt_eq; [|field; lra]. replace (y^3 / c * 1000 / 1000) with (y^3 / c) by (field; lra). apply Rmult_le_pos; lra. }
  assert (MO : forall x y, 0 <= x -> x < y -> cbrt (hertz_K3 K0 G0 phic Cn (x / 1000)) < cbrt (hertz_K3 K0 G0 phic Cn (y / 1000))).
  { intros x y X L. rewrite !EC. apply cbrt_lt. split; [apply Rmult_le_pos; lra|apply Rmult_lt_compat_l; lra]. }
  split.
  - apply (reads_back_onto _ _ _ (fun sg => cbrt (hertz_K3 K0 G0 phic Cn (sg / 1000)))); auto using convex_ray.
    + intros x X. rewrite HF by exact X. reflexivity.
    + left. intros x y X Y L. apply MO; auto.
    + intros x X. apply cbrt_nonneg.
    + intros y Y. exists (y^3 / c * 1000). apply ON, Y.
  - apply (reads_back_onto _ _ _ (fun sg => hertz_GK K0 G0 f * cbrt (hertz_K3 K0 G0 phic Cn (sg / 1000)))); auto using convex_ray.
    + intros x X. rewrite HF by exact X. reflexivity.
    + left. intros x y X Y L. apply Rmult_lt_compat_l; auto.
    + intros x X. apply Rmult_le_pos; [lra|apply cbrt_nonneg].
    + intros y Y. unfold ray in Y. set (w := y / hertz_GK K0 G0 f). assert (W : 0 <= w) by (apply Rmult_le_pos; [|left; apply Rinv_0_lt_compat]; lra).
      exists (w^3 / c * 1000). destruct (ON w W) as (A & B). split; [exact A|]. rewrite B. unfold w. field. lra.
Qed.
Print Assumptions C90_pack_pressure.

(** The modulus of the pore fluid, that of the dry frame, and the porosity, from the modulus of the saturated rock. *)
Lemma rat_lt K0 x y : 0 < K0 -> x < y -> y < K0 -> x / (K0 - x) < y / (K0 - y).
Proof.
  intros H L Ly. replace (x / (K0 - x)) with (K0 / (K0 - x) - 1) by (field; lra). replace (y / (K0 - y)) with (K0 / (K0 - y) - 1) by (field; lra).
  assert (/ (K0 - x) < / (K0 - y)) by (apply Rinv_lt_contravar; [apply Rmult_lt_0_compat|]; lra).
  assert (K0 / (K0 - x) < K0 / (K0 - y)) by (apply Rmult_lt_compat_l; lra). lra.
Qed.
Lemma rat_inj K0 x y : 0 < K0 -> x < K0 -> y < K0 -> x / (K0 - x) = y / (K0 - y) -> x = y.
Proof. intros H X Y E. destruct (Rtotal_order x y) as [L|[L|L]]; auto; [assert (Q := rat_lt K0 x y H L Y)|assert (Q := rat_lt K0 y x H L X)]; lra. Qed.
Lemma rat_le_inv K0 x y : 0 < K0 -> x < K0 -> y < K0 -> x / (K0 - x) <= y / (K0 - y) -> x <= y.
Proof. intros H X Y E. destruct (Rle_or_lt x y) as [|L]; auto. assert (Q := rat_lt K0 y x H L X). lra. Qed.
Lemma unrat_of K0 t : 0 < K0 -> 0 <= t -> 0 <= t * K0 / (1 + t) < K0 /\ t * K0 / (1 + t) / (K0 - t * K0 / (1 + t)) = t /\ (0 < t -> 0 < t * K0 / (1 + t)).
Proof.
  intros H T. repeat split.
  - apply Rmult_le_pos; [apply Rmult_le_pos; lra|left; apply Rinv_0_lt_compat; lra].
  - apply div_lt_iff; [lra|]. assert (0 < K0 * 1) by lra. lra.
  - field. split; [lra|]. replace (K0 * (1 + t) - t * K0) with K0 by ring. lra.
  - intros P. apply Rdiv_lt_0_compat; [apply Rmult_lt_0_compat|]; lra.
Qed.
Theorem C90_gassmann : forall m Kd Gd K0 Kf phi K1, 0 <= Kd < K0 -> 0 < Kf < K0 -> 0 < phi <= 1 ->
  Fluid_Gassmann m (Fin Kd) (Fin Gd) (Fin K0) (Fin Kf) (Fin 1) = Ret (Fin K1, Fin Gd) ->
  reads_back (fun Kf => part1 (Fluid_Gassmann m (Fin Kd) (Fin Gd) (Fin K0) Kf (Fin phi))) (oseg 0 K0) (oseg Kd K0) /\
  reads_back (fun Kd => part1 (Fluid_Gassmann m Kd (Fin Gd) (Fin K0) (Fin Kf) (Fin phi))) (rseg 0 K0) (rseg (/ (phi / Kf + (1 - phi) / K0)) K0) /\
  reads_back (fun phi => part1 (Fluid_Gassmann m (Fin Kd) (Fin Gd) (Fin K0) (Fin Kf) phi)) (lseg 0 1) (rseg K1 K0).
Proof.
  intros m Kd Gd K0 Kf phi K1 Hd Hf Hp E1.
  assert (HG : forall Kd Kf phi, 0 <= Kd < K0 -> 0 < Kf < K0 -> 0 < phi <= 1 ->
     Fluid_Gassmann m (Fin Kd) (Fin Gd) (Fin K0) (Fin Kf) (Fin phi) = Ret (Fin (gK Kd K0 Kf phi), Fin Gd) /\
     Kd < gK Kd K0 Kf phi < K0 /\ gK Kd K0 Kf phi / (K0 - gK Kd K0 Kf phi) = Kd / (K0 - Kd) + Kf / (phi * (K0 - Kf))).
  { intros kd kf p D F P. destruct (gK_ratio kd K0 kf p ltac:(lra) ltac:(lra) D P ltac:(lra)) as (A & B).
    destruct (gK_range kd K0 kf p ltac:(lra) ltac:(lra) D P) as (C & _).
    split; [|split; [lra|exact B]]. assert (X1 := gB_pos kd K0 kf p ltac:(lra) ltac:(lra) P). assert (X2 := gb_pos kd K0 ltac:(lra) ltac:(lra)). apply Gassmann_eval; lra. }
  assert (FR : forall kf p, kf / (p * (K0 - kf)) = kf / (K0 - kf) / p \/ p = 0 \/ K0 - kf = 0).
  { intros kf p. destruct (Req_dec p 0); auto. destruct (Req_dec (K0 - kf) 0); auto. left. field. auto. }
  assert (FP : forall kf p, 0 < kf < K0 -> 0 < p -> kf / (p * (K0 - kf)) = kf / (K0 - kf) / p /\ 0 < kf / (K0 - kf) / p).
  { intros kf p F P. destruct (FR kf p) as [Q|[Q|Q]]; try lra. split; [exact Q|]. apply Rdiv_lt_0_compat; auto. apply Rdiv_lt_0_compat; lra. }
  assert (RD : 0 <= Kd / (K0 - Kd)) by (apply Rmult_le_pos; [lra|left; apply Rinv_0_lt_compat; lra]).
  split; [|split].
  - apply (reads_back_onto _ _ _ (fun kf => gK Kd K0 kf phi)); auto using convex_oseg; unfold oseg.
    + intros x X. destruct (HG Kd x phi Hd X Hp) as (E & _). rewrite E. reflexivity.
    + left. intros x y X Y L. unfold oseg in *. apply gK_strict_Kf; auto; lra.
    + intros x X. apply (HG Kd x phi Hd X Hp).
    + intros y Y. assert (RY := rat_lt K0 Kd y ltac:(lra) ltac:(lra) ltac:(lra)).
      set (t := phi * (y / (K0 - y) - Kd / (K0 - Kd))). assert (T : 0 < t) by (apply Rmult_lt_0_compat; lra).
      destruct (unrat_of K0 t ltac:(lra) ltac:(lra)) as (A & B & C). specialize (C T). set (x := t * K0 / (1 + t)) in *.
      exists x. split; [lra|]. destruct (HG Kd x phi Hd ltac:(lra) Hp) as (_ & U & V). apply (rat_inj K0); try lra.
      rewrite V. destruct (FP x phi ltac:(lra) ltac:(lra)) as (-> & _). rewrite B. unfold t. field. lra.
  - assert (E0 : gK 0 K0 Kf phi = / (phi / Kf + (1 - phi) / K0)).
    { assert (X1 := gB_pos 0 K0 Kf phi ltac:(lra) ltac:(lra) Hp). assert (X2 := gb_pos 0 K0 ltac:(lra) ltac:(lra)). unfold gK, gB in *.
      replace (0 / K0) with 0 in * by (field; lra). replace (0 / K0^2) with 0 in * by (field; lra).
      replace (phi / Kf + (1 - phi) / K0 - 0) with (phi / Kf + (1 - phi) / K0) in * by ring. field.
      repeat split; try lra. intros Z. assert (Q : phi / Kf + (1 - phi) / K0 = (phi * K0 + (1 - phi) * Kf) / (Kf * K0)) by (field; lra). rewrite Z in Q. unfold Rdiv in Q at 3. rewrite Rmult_0_l in Q. lra. }
    rewrite <- E0. destruct (HG 0 Kf phi ltac:(lra) Hf Hp) as (_ & U0 & V0). replace (0 / (K0 - 0)) with 0 in V0 by (field; lra).
    destruct (FP Kf phi Hf ltac:(lra)) as (EF & PF). rewrite EF in V0.
    assert (MO : forall x y, 0 <= x -> x < y -> y < K0 -> gK x K0 Kf phi < gK y K0 Kf phi).
    { intros x y X L Y. destruct (HG x Kf phi ltac:(lra) Hf Hp) as (_ & U & V). destruct (HG y Kf phi ltac:(lra) Hf Hp) as (_ & U' & V').
      assert (Q := rat_lt K0 x y ltac:(lra) L Y). apply Rnot_le_lt. intros N. destruct N as [N|N].
      - assert (Z := rat_lt K0 _ _ ltac:(lra) N ltac:(lra)). lra.
      - rewrite N in V'. lra. }
    apply (reads_back_onto _ _ _ (fun kd => gK kd K0 Kf phi)); auto using convex_rseg; unfold rseg.
    + intros x X. destruct (HG x Kf phi X Hf Hp) as (E & _). rewrite E. reflexivity.
    + left. intros x y X Y L. unfold rseg in *. apply MO; lra.
    + intros x X. destruct (HG x Kf phi X Hf Hp) as (_ & U & _). split; [|lra]. destruct (Req_dec x 0) as [->|N]; [lra|]. left. apply MO; lra.
    + intros y Y.
      assert (RY : gK 0 K0 Kf phi / (K0 - gK 0 K0 Kf phi) <= y / (K0 - y)).
      { destruct (Req_dec y (gK 0 K0 Kf phi)) as [->|N]; [lra|]. left. apply rat_lt; lra. }
      set (t := y / (K0 - y) - Kf / (K0 - Kf) / phi). assert (T : 0 <= t) by (unfold t; lra).
      destruct (unrat_of K0 t ltac:(lra) T) as (A & B & _). set (x := t * K0 / (1 + t)) in *.
      exists x. split; [lra|]. destruct (HG x Kf phi A Hf Hp) as (_ & U & V). apply (rat_inj K0); try lra. rewrite V, EF, B. unfold t. ring.
  - destruct (HG Kd Kf 1 Hd Hf ltac:(lra)) as (Q & U1 & V1). rewrite Q in E1. injection E1 as <-. destruct (FP Kf 1 Hf ltac:(lra)) as (EF & PF). rewrite EF in V1.
    set (w := Kf / (K0 - Kf)) in *. assert (W : 0 < w) by (unfold w; apply Rdiv_lt_0_compat; lra). replace (w / 1) with w in V1 by field.
    apply (reads_back_onto _ _ _ (fun p => gK Kd K0 Kf p)); auto using convex_lseg; unfold lseg.
    + intros x X. destruct (HG Kd Kf x Hd Hf X) as (E & _). rewrite E. reflexivity.
    + right. intros x y X Y L. unfold lseg in *. destruct (HG Kd Kf x Hd Hf X) as (_ & U & V). destruct (HG Kd Kf y Hd Hf Y) as (_ & U' & V').
      destruct (FP Kf x Hf ltac:(lra)) as (F1 & _). destruct (FP Kf y Hf ltac:(lra)) as (F2 & _). rewrite F1 in V. rewrite F2 in V'. fold w in V, V'.
      assert (w / y < w / x) by (apply Rmult_lt_compat_l; [lra|apply Rinv_lt_contravar; [apply Rmult_lt_0_compat|]; lra]).
      apply Rnot_le_lt. intros N. destruct N as [N|N]; [assert (Z := rat_lt K0 _ _ ltac:(lra) N ltac:(lra)); lra|rewrite N in V; lra].
    + intros x X. destruct (HG Kd Kf x Hd Hf X) as (_ & U & V). split; [|lra]. apply (rat_le_inv K0); try lra. rewrite V, V1. assert (0 <= w * (1 - x)) by (apply Rmult_le_pos; lra).
      destruct (FP Kf x Hf ltac:(lra)) as (-> & _). fold w. assert (w <= w / x) by (apply le_div_iff; lra). lra.
    + intros y Y. unfold rseg in Y. assert (RY : gK Kd K0 Kf 1 / (K0 - gK Kd K0 Kf 1) <= y / (K0 - y)).
      { destruct (Req_dec y (gK Kd K0 Kf 1)) as [->|N]; [lra|]. left. apply rat_lt; lra. }
      set (t := y / (K0 - y) - Kd / (K0 - Kd)). assert (T : w <= t) by (unfold t; lra).
      assert (X : 0 < w / t <= 1) by (split; [apply Rdiv_lt_0_compat; lra|apply div_le_iff; lra]).
      exists (w / t). split; [exact X|]. destruct (HG Kd Kf (w / t) Hd Hf X) as (_ & U & V). apply (rat_inj K0); try lra.
      rewrite V. destruct (FP Kf (w / t) Hf ltac:(lra)) as (-> & _). fold w. replace (w / (w / t)) with t by (field; lra). unfold t. ring.
Qed.
Print Assumptions C90_gassmann.

(** Water saturation from the modulus of Brie's mixture. *)
Theorem C90_brie : forall m Kw Kg e, Kg < Kw -> 0 < e ->
  reads_back (fun S => Fluid_Brie m (Fin Kw) (Fin Kg) S (Fin e)) (seg 0 1) (seg Kg Kw).
Proof.
  intros m Kw Kg e L He. destruct (Brie_facts m Kw Kg e He ltac:(lra)) as (B & E & B0 & B1 & _ & M & _).
  enough (R : reads_back (fun S => Fluid_Brie m (Fin Kw) (Fin Kg) S (Fin e)) (seg 0 1) (seg (B 0) (B 1))) by (rewrite B0, B1 in R; exact R).
  apply (seg_incr _ 0 1 B); [lra| | |].
  - intros x X. apply E, X.
  - apply (curve_cont (fun l => match l with [Kw; Kgas; Sw; e] => out1 (Fluid_Brie m Kw Kgas Sw e) | _ => Unknown end)
      (fun l => match l with [_; _; Sw; e] => Sw <> 0 \/ e <> 0 | _ => False end) [Kw; Kg] [e] 0).
    + apply cont_Fluid_Brie.
    + intros x X. cbn. right. lra.
    + intros x X. exists [B x]. cbn [app map]. rewrite E by apply X. split; reflexivity.
  - intros x y X Y XY. apply M; auto. apply X.
Qed.
Print Assumptions C90_brie.

(** Porosity from the permeability of Kozeny and Carman. *)
Theorem C90_kozeny_carman : forall m d, 0 < d ->
  reads_back (fun phi => Perm_Kozeny_Carman m phi (Fin d)) (rseg 0 1) (ray 0).
Proof.
  intros m d Hd. set (g := fun phi => kozeny_carman phi d).
  assert (HF : forall x, rseg 0 1 x -> Perm_Kozeny_Carman m (Fin x) (Fin d) = Ret (Fin (g x))) by (intros x X; apply KC_fin; unfold rseg in X; lra).
  assert (D2 : 0 < d^2) by (apply pow_lt, Hd).
  assert (I : incr (rseg 0 1) g).
  { intros x y X Y L. unfold rseg in *. assert (Q := frac_incr 2 x y ltac:(lra) L ltac:(lra)). unfold g, kozeny_carman.
    assert (0 < (1 - x)^2) by (apply pow_lt; lra). assert (0 < (1 - y)^2) by (apply pow_lt; lra).
    replace (d^2 * x^3 / (180 * (1 - x)^2)) with (d^2 / 180 * (x^3 / (1 - x)^2)) by (field; lra).
    replace (d^2 * y^3 / (180 * (1 - y)^2)) with (d^2 / 180 * (y^3 / (1 - y)^2)) by (field; lra). apply Rmult_lt_compat_l; lra. }
  assert (G0 : g 0 = 0) by (unfold g, kozeny_carman; field).
  apply (reads_back_mono _ _ _ g); auto using convex_rseg.
  - apply (curve_cont (fun l => match l with [phi; d] => out1 (Perm_Kozeny_Carman m phi d) | _ => Unknown end) (fun _ => True) [] [d] 0).
    + apply cont_Perm_Kozeny_Carman.
    + auto.
    + intros x X. exists [g x]. cbn [app map]. rewrite HF by exact X. split; reflexivity.
  - intros y. unfold ray. split.
    + intros Y. exists 0. set (N := 1 + y * 1440 / d^2). assert (QN : 0 <= y * 1440 / d^2) by (apply Rmult_le_pos; [lra|left; apply Rinv_0_lt_compat; lra]).
      assert (PN : 1 <= N) by (unfold N; lra). set (s := / (2 * N)). assert (Ps : 0 < s) by (apply Rinv_0_lt_compat; lra).
      assert (Ls : s <= 1/2). { unfold s. replace (1/2) with (/ 2) by field. apply Rinv_le_contravar; lra. }
      exists (1 - s). unfold rseg. split; [lra|]. split; [lra|]. rewrite G0. split; [exact Y|]. unfold g, kozeny_carman.
      replace (1 - (1 - s)) with s by ring. assert (C : (1/2)^3 <= (1 - s)^3) by (apply pow_incr; lra).
      assert (S2 : 0 < s^2) by (apply pow_lt, Ps). apply le_div_iff; [lra|].
      assert (E : y * (180 * s^2) = d^2 / 8 * ((N - 1) * s^2)) by (unfold N; field; lra). rewrite E.
      assert (s^2 * (4 * N^2) = 1) by (unfold s; field; lra).
      assert ((N - 1) * s^2 <= 4 * N^2 * s^2) by (apply Rmult_le_compat_r; [lra|]; nra).
      assert (d^2 / 8 * ((N - 1) * s^2) <= d^2 / 8 * 1) by (apply Rmult_le_compat_l; lra).
      assert (d^2 * (1/2)^3 <= d^2 * (1 - s)^3) by (apply Rmult_le_compat_l; lra). lra.
    + intros (x1 & x2 & X1 & X2 & Y). assert (g 0 <= g x1) by (apply (incr_le (rseg 0 1)); auto; unfold rseg in *; lra). lra.
Qed.
Print Assumptions C90_kozeny_carman.

(** Porosity from the moduli of Krief's relation. *)
Theorem C90_krief : forall m Kg Gg, 0 < Kg -> 0 < Gg ->
  reads_back (fun phi => part2 (Emp_krief m phi (Fin Kg) (Fin Gg))) (rseg 0 1) (lseg 0 Kg) /\
  reads_back (fun phi => part2 (part1 (Emp_krief m phi (Fin Kg) (Fin Gg)))) (rseg 0 1) (lseg 0 Gg).
Proof.
  intros m Kg Gg HK HG.
  assert (W : forall (F : fl -> outcome fl) M, 0 < M -> (forall x, rseg 0 1 x -> F (Fin x) = Ret (Fin (krief_c (1 - x) * M))) -> rcont (rseg 0 1) (fun x => krief_c (1 - x) * M) ->
     reads_back F (rseg 0 1) (lseg 0 M)).
  { intros F M HM HF C. assert (D : decr (rseg 0 1) (fun x => krief_c (1 - x) * M)).
    { intros x y X Y L. unfold rseg in *. apply Rmult_lt_compat_r; [exact HM|]. apply krief_mono; lra. }
    assert (E0 : krief_c (1 - 0) * M = M) by (rewrite Rminus_0_r, krief_1; ring).
    apply (reads_back_mono F _ _ (fun x => krief_c (1 - x) * M)); auto using convex_rseg. intros y. unfold lseg. split.
    - intros Y. exists (1 - y / M), 0. assert (P : 0 < y / M) by (apply Rdiv_lt_0_compat; lra). assert (Q : y / M <= 1) by (apply div_le_iff; lra).
      split; [unfold rseg; lra|]. split; [unfold rseg; lra|]. cbv beta. rewrite E0. split; [|lra]. replace (1 - (1 - y / M)) with (y / M) by ring.
      assert (A := krief_le3 (y / M) ltac:(lra)). assert (B : (y / M)^3 <= y / M).
      { replace ((y / M)^3) with (y / M * (y / M * (y / M))) by ring. assert (y / M * (y / M) <= 1 * 1) by (apply Rmult_le_compat; lra). assert (y / M * (y / M * (y / M)) <= y / M * 1) by (apply Rmult_le_compat_l; lra). lra. }
      apply Rle_trans with (y / M * M); [apply Rmult_le_compat_r; lra|right; field; lra].
    - intros (x1 & x2 & X1 & X2 & Y). split.
      + apply Rlt_le_trans with (krief_c (1 - x1) * M); [apply Rmult_lt_0_compat; [apply krief_pos|exact HM]|apply Y].
      + apply Rle_trans with (krief_c (1 - x2) * M); [apply Y|]. rewrite <- E0 at 2. apply (decr_le (rseg 0 1) (fun x => krief_c (1 - x) * M)); auto; unfold rseg in *; lra. }
  assert (RC : forall k, (k = 1 \/ k = 2)%nat -> rcont (rseg 0 1) (fun x => krief_c (1 - x) * (if Nat.eqb k 1 then Gg else Kg))).
  { intros k Hk. apply (curve_cont (fun l => match l with [phi; Kg; Gg] => out3 (Emp_krief m phi Kg Gg) | _ => Unknown end) (fun _ => True) [] [Kg; Gg] k).
    - apply cont_Emp_krief.
    - auto.
    - intros x X. unfold rseg in X. exists [krief_c (1 - x) * Kg - 2 / 3 * (krief_c (1 - x) * Gg); krief_c (1 - x) * Gg; krief_c (1 - x) * Kg].
      cbn [app map]. rewrite krief_fin by lra. split; [reflexivity|]. destruct Hk as [->| ->]; reflexivity. }
  split; apply W; auto.
  - intros x X. unfold rseg in X. rewrite krief_fin by lra. reflexivity.
  - apply (RC 2%nat); auto.
  - intros x X. unfold rseg in X. rewrite krief_fin by lra. reflexivity.
  - apply (RC 1%nat); auto.
Qed.
Print Assumptions C90_krief.

(** Porosity from the moduli of a solid with spherical pores (the formula goes on beyond porosity 1). *)
Theorem C90_swiss_cheese : forall m Ks Gs, 0 < Ks -> 0 < Gs ->
  reads_back (fun phi => part1 (EM_Swiss_cheese m (Fin Ks) (Fin Gs) phi)) (ray 0) (lseg 0 Ks) /\
  reads_back (fun phi => part2 (EM_Swiss_cheese m (Fin Ks) (Fin Gs) phi)) (ray 0) (lseg 0 Gs).
Proof.
  intros m Ks Gs HK HG.
  assert (W : forall (F : fl -> outcome fl) M c, 0 < M -> 0 < c -> (forall x, 0 <= x -> F (Fin x) = Ret (Fin (1 / (1 / M + c * x)))) -> reads_back F (ray 0) (lseg 0 M)).
  { intros F M c HM Hc HF. assert (P : 0 < 1 / M) by (apply Rdiv_lt_0_compat; lra).
    assert (Q : forall x, 0 <= x -> 0 <= c * x) by (intros; apply Rmult_le_pos; lra).
    assert (EM : 1 / (1 / M) = M) by (field; lra).
    apply (reads_back_onto F _ _ (fun x => 1 / (1 / M + c * x))); auto using convex_ray; unfold ray, lseg.
    - right. intros x y X Y L. unfold ray in *. specialize (Q x X). assert (c * x < c * y) by (apply Rmult_lt_compat_l; lra). apply inv_lt_strict; lra.
    - intros x X. specialize (Q x X). split; [apply Rdiv_lt_0_compat; lra|]. rewrite <- EM at 2. destruct (Req_dec (c * x) 0) as [->|N]; [right; f_equal; ring|]. left. apply inv_lt_strict; lra.
    - intros y Y. assert (1 / M <= 1 / y). { destruct (Req_dec y M) as [->|N]; [lra|]. left. apply inv_lt_strict; lra. }
      exists ((1 / y - 1 / M) / c). split; [apply Rmult_le_pos; [lra|left; apply Rinv_0_lt_compat, Hc]|]. field. lra. }
  assert (A : 0 < 1 / Ks + 3 / (4 * Gs)). { assert (0 < 1 / Ks) by (apply Rdiv_lt_0_compat; lra). assert (0 < 3 / (4 * Gs)) by (apply Rdiv_lt_0_compat; lra). lra. }
  assert (B : 0 < (15 * Ks + 20 * Gs) / (9 * Ks + 8 * Gs) / Gs) by (apply Rdiv_lt_0_compat; [apply Rdiv_lt_0_compat|]; lra).
  split; [apply (W _ Ks _ HK A)|apply (W _ Gs _ HG B)]; intros x X; rewrite Swiss_eval by auto; [reflexivity|].
  unfold part2, gst. cbn [call snd]. do 4 f_equal. field. lra.
Qed.
Print Assumptions C90_swiss_cheese.

(** The bulk modulus from Poisson's ratio. *)
Theorem C90_poisson : forall m G, 0 < G -> reads_back (fun K => utils_poi m K (Fin G)) (fun K => 0 < K) (oseg (-1) (1/2)).
Proof.
  intros m G HG. set (g := fun K => (3 * K - 2 * G) / (2 * (3 * K + G))).
  apply (reads_back_onto _ _ _ g).
  - intros x y z X Y Z. cbv beta in *. lra.
  - intros K HK. cbv beta in HK. rewrite poi_eval by lra. unfold g. do 3 f_equal. lra.
  - left. intros x y X Y L. cbv beta in *. unfold g. replace ((3 * x - 2 * G) / (2 * (3 * x + G))) with (1/2 - 3/2 * G / (3 * x + G)) by (field; lra).
    replace ((3 * y - 2 * G) / (2 * (3 * y + G))) with (1/2 - 3/2 * G / (3 * y + G)) by (field; lra).
    assert (3/2 * G / (3 * y + G) < 3/2 * G / (3 * x + G)); [|lra]. apply Rmult_lt_compat_l; [lra|]. apply Rinv_lt_contravar; [apply Rmult_lt_0_compat|]; lra.
  - intros x X. cbv beta in X. unfold oseg, g. split; [apply lt_div_iff|apply div_lt_iff]; lra.
  - intros y Y. unfold oseg in Y. exists (2 * G * (1 + y) / (3 * (1 - 2 * y))). split; [apply Rdiv_lt_0_compat; [apply Rmult_lt_0_compat|]; lra|].
    unfold g. field. split; [lra|]. replace (3 * (2 * G * (1 + y)) + G * (3 * (1 - 2 * y))) with (9 * G) by ring. lra.
Qed.
Print Assumptions C90_poisson.

(** Effective pressure from the velocities of the St Peter sandstones. *)
Theorem C90_StPeter : forall s, (s = 1 \/ s = 2)%Z -> exists vp0 vs0, Emp_StPeter (Fin 0) s = Ret (Fin vp0, Fin vs0) /\
  reads_back (fun P => part1 (Emp_StPeter P s)) (ray 0) (ray vp0) /\ reads_back (fun P => part2 (Emp_StPeter P s)) (ray 0) (ray vs0).
Proof.
  assert (W : forall (F : fl -> outcome fl) A K B D, 0 < K -> 0 < B -> 0 < D -> (forall x, F (Fin x) = Ret (Fin (1000 * pressure_law A K B D x))) ->
    reads_back F (ray 0) (ray (1000 * pressure_law A K B D 0))).
  { intros F A K B D HK HB HD HF. set (g := fun x => 1000 * pressure_law A K B D x).
    assert (I : incr (ray 0) g). { intros x y X Y L. unfold g. apply Rmult_lt_compat_l; [lra|]. apply pressure_incr; auto. }
    apply (reads_back_mono F _ _ g); [apply convex_ray|intros; apply HF| |auto|].
    - apply pt_rcont. intros x _. unfold g, pressure_law. reg.
    - intros y. unfold ray. fold (g 0). split.
      + intros Y. exists 0, ((y - g 0) / (1000 * K)). assert (Q : 0 <= (y - g 0) / (1000 * K)) by (apply Rmult_le_pos; [lra|left; apply Rinv_0_lt_compat; lra]).
        split; [lra|]. split; [exact Q|]. split; [exact Y|]. set (x := (y - g 0) / (1000 * K)) in *.
        assert (E : y = g 0 + 1000 * K * x) by (unfold x; field; lra). rewrite E. unfold g, pressure_law.
        assert (exp (- D * x) <= exp (- D * 0)). { destruct (Req_dec x 0) as [->|N]; [lra|]. left. apply exp_increasing. assert (0 < D * x) by (apply Rmult_lt_0_compat; lra). lra. }
        assert (B * exp (- D * x) <= B * exp (- D * 0)) by (apply Rmult_le_compat_l; lra). lra.
      + intros (x1 & x2 & X1 & X2 & Y). assert (g 0 <= g x1) by (apply (incr_le (ray 0)); auto; unfold ray; lra). lra. }
  intros s [-> | ->]; destruct (C61_StPeter 0) as (E1 & E2); do 2 eexists; (split; [eassumption|]); split; apply W; try lra;
    intros x; destruct (C61_StPeter x) as (F1 & F2); rewrite ?F1, ?F2; reflexivity.
Qed.
Print Assumptions C90_StPeter.

(** Brine saturation from the impedance and from Vp/Vs of a rock-physics template. *)
Theorem C90_template : forall Kd Gd K0 D0 Kb Db Khc Dhc phi, 0 <= Kd < K0 -> 0 < Gd -> 0 < Khc < Kb -> Kb < K0 -> 0 < phi <= 1 -> 0 < D0 -> 0 < Db -> 0 < Dhc ->
  let point s := QI_rpt_point (Fin Kd) (Fin Gd) (Fin K0) (Fin D0) (Fin Kb) (Fin Db) (Fin Khc) (Fin Dhc) (Fin phi) s in
  exists ip0 ps0 ip1 ps1, point (Fin 0) = Ret (Fin ip0, Fin ps0) /\ point (Fin 1) = Ret (Fin ip1, Fin ps1) /\
  reads_back (fun s => part2 (point s)) (seg 0 1) (seg ps0 ps1) /\
  (Dhc <= Db -> reads_back (fun s => part1 (point s)) (seg 0 1) (seg ip0 ip1)).
Proof.
  intros Kd Gd K0 D0 Kb Db Khc Dhc phi H1 H2 H3 H4 H5 P1 P2 P3 point.
  set (rho := fun s => D0 * (1 - phi) + (s * Db + (1 - s) * Dhc) * phi). set (M := fun s => gK Kd K0 (wood2 s Kb Khc) phi + 4/3 * Gd).
  assert (RP : forall s, seg 0 1 s -> 0 < rho s).
  { intros s Hs. unfold seg in Hs. assert (0 < s * Db + (1 - s) * Dhc).
    { destruct (Rle_lt_or_eq_dec 0 s) as [L|L]; [lra| |subst; lra]. assert (0 < s * Db) by (apply Rmult_lt_0_compat; lra). assert (0 <= (1 - s) * Dhc) by (apply Rmult_le_pos; lra). lra. }
    assert (0 < (s * Db + (1 - s) * Dhc) * phi) by (apply Rmult_lt_0_compat; lra). assert (0 <= D0 * (1 - phi)) by (apply Rmult_le_pos; lra). unfold rho. lra. }
  assert (E : forall s, seg 0 1 s -> point (Fin s) = Ret (Fin (sqrt (M s / rho s) * 1000 * rho s), Fin (sqrt (M s / rho s) * 1000 / (sqrt (Gd / rho s) * 1000))) /\ 0 < wood2 s Kb Khc <= K0 /\ 0 < M s).
  { intros s Hs. destruct (rpt_eval Kd Gd K0 D0 Kb Db Khc Dhc phi s H1 H2 ltac:(lra) ltac:(lra) H5 Hs (RP s Hs)) as (E & _ & W & PM). auto. }
  assert (CW : forall s, seg 0 1 s -> continuity_pt (fun s => wood2 s Kb Khc) s).
  { intros s Hs. assert (Q := wood2_pos s Kb Khc Hs ltac:(lra) ltac:(lra)). unfold wood2. apply (continuity_pt_div (fun _ => 1) (fun s => s / Kb + (1 - s) / Khc)); [reg|reg; lra|lra]. }
  assert (CM : forall s, seg 0 1 s -> continuity_pt M s).
  { intros s Hs. destruct (E s Hs) as (_ & W & _). assert (B := gB_pos Kd K0 (wood2 s Kb Khc) phi ltac:(lra) W H5). assert (b := gb_pos Kd K0 ltac:(lra) H1). unfold M, gK.
    apply (continuity_pt_plus (fun s => Kd + (1 - Kd / K0)^2 / gB Kd K0 (wood2 s Kb Khc) phi) (fun _ => 4/3 * Gd)); [|reg].
    apply (continuity_pt_plus (fun _ => Kd) (fun s => (1 - Kd / K0)^2 / gB Kd K0 (wood2 s Kb Khc) phi)); [reg|].
    apply (continuity_pt_div (fun _ => (1 - Kd / K0)^2) (fun s => gB Kd K0 (wood2 s Kb Khc) phi)); [reg| |lra].
    apply (continuity_pt_comp (fun s => wood2 s Kb Khc) (fun w => gB Kd K0 w phi)); [apply CW, Hs|]. unfold gB. set (w := wood2 s Kb Khc) in *.
    assert (continuity_pt (fun w => phi / w) w) by (apply (continuity_pt_div (fun _ => phi) (fun w => w)); [reg|reg|lra]).
    apply (continuity_pt_minus (fun w => phi / w + (1 - phi) / K0) (fun _ => Kd / K0^2)); [|reg]. apply (continuity_pt_plus (fun w => phi / w) (fun _ => (1 - phi) / K0)); [assumption|reg]. }
  assert (CR : forall s, continuity_pt rho s) by (intros s; unfold rho; reg).
  assert (CS : forall s, seg 0 1 s -> continuity_pt (fun s => sqrt (M s / rho s)) s).
  { intros s Hs. apply (continuity_pt_comp (fun s => M s / rho s) sqrt).
    - apply (continuity_pt_div M rho); auto. specialize (RP s Hs). lra.
    - apply sqrt_continuity_pt. apply Rdiv_lt_0_compat; [apply E, Hs|apply RP, Hs]. }
  assert (I0 : seg 0 1 0) by (unfold seg; lra). assert (I1 : seg 0 1 1) by (unfold seg; lra).
  do 4 eexists. split; [apply E, I0|]. split; [apply E, I1|]. split.
  - apply (seg_incr _ 0 1 (fun s => sqrt (M s / rho s) * 1000 / (sqrt (Gd / rho s) * 1000))); [lra| | |].
    + intros s Hs. cbv beta. rewrite (proj1 (E s Hs)). reflexivity.
    + apply pt_rcont. intros s Hs. assert (0 < Gd / rho s) by (apply Rdiv_lt_0_compat; auto). assert (SP := sqrt_lt_R0 _ H).
      apply (continuity_pt_div (fun s => sqrt (M s / rho s) * 1000) (fun s => sqrt (Gd / rho s) * 1000)); [| |lra].
      * apply (continuity_pt_mult (fun s => sqrt (M s / rho s)) (fun _ => 1000)); [apply CS, Hs|reg].
      * apply (continuity_pt_mult (fun s => sqrt (Gd / rho s)) (fun _ => 1000)); [|reg].
        apply (continuity_pt_comp (fun s => Gd / rho s) sqrt); [|apply sqrt_continuity_pt; exact H].
        apply (continuity_pt_div (fun _ => Gd) rho); [reg|auto|specialize (RP s Hs); lra].
    + intros x y X Y L. apply (C68_saturation_trend Kd Gd K0 D0 Kb Db Khc Dhc phi x y _ _ _ _ H1 H2 H3 H4 H5 (proj1 X) L (proj2 Y) P1 P2 P3 (proj1 (E x X)) (proj1 (E y Y))).
  - intros HD. apply (seg_incr _ 0 1 (fun s => sqrt (M s / rho s) * 1000 * rho s)); [lra| | |].
    + intros s Hs. cbv beta. rewrite (proj1 (E s Hs)). reflexivity.
    + apply pt_rcont. intros s Hs. apply (continuity_pt_mult (fun s => sqrt (M s / rho s) * 1000) rho); [|auto].
      apply (continuity_pt_mult (fun s => sqrt (M s / rho s)) (fun _ => 1000)); [apply CS, Hs|reg].
    + intros x y X Y L. apply (C68_saturation_trend Kd Gd K0 D0 Kb Db Khc Dhc phi x y _ _ _ _ H1 H2 H3 H4 H5 (proj1 X) L (proj2 Y) P1 P2 P3 (proj1 (E x X)) (proj1 (E y Y))), HD.
Qed.
Print Assumptions C90_template.

(** ** Curves that cannot be read backwards *)
(** Saturation from Vp: the first gas lowers the stiffness faster than the density, so Vp falls and rises again. [reuss_vp]: the
    fluids mixed as a suspension (Reuss average), then substituted. *)
Definition reuss_vp (Kd Gd K0 D0 Kb Db Khc Dhc phi : R) (s : fl) : outcome fl :=
  call! p := EM_VRH [#1 - s; s]%fl [Fin Khc; Fin Kb] in
  part1 (part1 (Fluid_vels NumPy (Fin Kd) (Fin Gd) (Fin K0) (Fin D0) (snd (fst p)) (s * Fin Db + (#1 - s) * Fin Dhc)%fl (Fin phi))).
Theorem C90_vp_saturation_refuted : exists Kd Gd K0 D0 Kb Db Khc Dhc phi, 0 < Kd < K0 /\ 0 < Gd /\ 0 < Khc < Kb /\ Kb < K0 /\ 0 < Dhc < Db /\ Db < D0 /\ 0 < phi < 1 /\
  ambiguous (reuss_vp Kd Gd K0 D0 Kb Db Khc Dhc phi) (seg 0 1).
Proof.
  exists 5, 5, 37, (53/20), (5/2), 1, (1/50), (1/10), (3/10). do 7 (split; [lra|]).
  set (g := fun s => sqrt ((gK 5 37 (wood2 s (5/2) (1/50)) (3/10) + 4/3 * 5) / ((53/20) * (1 - (3/10)) + (s * 1 + (1 - s) * (1/10)) * (3/10))) * 1000).
  assert (EV : forall s, seg 0 1 s -> reuss_vp 5 5 37 (53/20) (5/2) 1 (1/50) (1/10) (3/10) (Fin s) = Ret (Fin (g s))).
  { intros s Hs. unfold seg in Hs. unfold reuss_vp. rewrite fsub_fin. destruct (VRH_two (1/50) (5/2) s) as (v & h & ->); [lra|lra|lra|]. cbn [call fst snd]. rewrite !fmul_fin, fadd_fin.
    replace (1 / ((1 - s) / (1/50) + s / (5/2))) with (wood2 s (5/2) (1/50)) by (unfold wood2; f_equal; ring).
    assert (W := wood2_range s (5/2) (1/50) Hs ltac:(lra) ltac:(lra)). rewrite vels_eval by lra. reflexivity. }
  assert (CG : rcont (seg 0 1) g).
  { apply pt_rcont. intros s Hs. assert (W := wood2_range s (5/2) (1/50) Hs ltac:(lra) ltac:(lra)). assert (Q := wood2_pos s (5/2) (1/50) Hs ltac:(lra) ltac:(lra)). unfold seg in Hs.
    assert (B := gB_pos 5 37 (wood2 s (5/2) (1/50)) (3/10) ltac:(lra) ltac:(lra) ltac:(lra)). assert (b := gb_pos 5 37 ltac:(lra) ltac:(lra)).
    destruct (gK_range 5 37 (wood2 s (5/2) (1/50)) (3/10) ltac:(lra) ltac:(lra) ltac:(lra) ltac:(lra)) as (R & _).
    assert (CW : continuity_pt (fun s => wood2 s (5/2) (1/50)) s). { unfold wood2. apply (continuity_pt_div (fun _ => 1) (fun s => s / (5/2) + (1 - s) / (1/50))); [reg|reg; lra|lra]. }
    assert (CK : continuity_pt (fun s => gK 5 37 (wood2 s (5/2) (1/50)) (3/10)) s).
    { apply (continuity_pt_plus (fun _ => 5) (fun s => (1 - 5 / 37)^2 / gB 5 37 (wood2 s (5/2) (1/50)) (3/10))); [reg|].
      apply (continuity_pt_div (fun _ => (1 - 5 / 37)^2) (fun s => gB 5 37 (wood2 s (5/2) (1/50)) (3/10))); [reg| |lra].
      apply (continuity_pt_comp (fun s => wood2 s (5/2) (1/50)) (fun w => gB 5 37 w (3/10))); [exact CW|]. unfold gB. set (w := wood2 s (5/2) (1/50)) in *.
      assert (continuity_pt (fun w => (3/10) / w) w) by (apply (continuity_pt_div (fun _ => (3/10)) (fun w => w)); [reg|reg|lra]).
      apply (continuity_pt_minus (fun w => (3/10) / w + (1 - (3/10)) / 37) (fun _ => 5 / 37^2)); [|reg]. apply (continuity_pt_plus (fun w => (3/10) / w) (fun _ => (1 - (3/10)) / 37)); [assumption|reg]. }
    apply (continuity_pt_mult (fun s => sqrt ((gK 5 37 (wood2 s (5/2) (1/50)) (3/10) + 4/3 * 5) / ((53/20) * (1 - (3/10)) + (s * 1 + (1 - s) * (1/10)) * (3/10)))) (fun _ => 1000)); [|reg].
    apply (continuity_pt_comp (fun s => (gK 5 37 (wood2 s (5/2) (1/50)) (3/10) + 4/3 * 5) / ((53/20) * (1 - (3/10)) + (s * 1 + (1 - s) * (1/10)) * (3/10))) sqrt); [|apply sqrt_continuity_pt, Rdiv_lt_0_compat; lra].
    apply (continuity_pt_div (fun s => gK 5 37 (wood2 s (5/2) (1/50)) (3/10) + 4/3 * 5) (fun s => (53/20) * (1 - (3/10)) + (s * 1 + (1 - s) * (1/10)) * (3/10))); [|reg|lra].
    apply (continuity_pt_plus (fun s => gK 5 37 (wood2 s (5/2) (1/50)) (3/10)) (fun _ => 4/3 * 5)); [exact CK|reg]. }
  assert (L : g (1/2) <= g 0 <= g 1).
  { assert (K_0 : gK 5 37 (wood2 0 (5/2) (1/50)) (3/10) = 5 + (32/37)^2 / (15 + (7/10) / 37 - 5 / 37^2)) by (unfold gK, gB, wood2; field).
    assert (K_h : gK 5 37 (wood2 (1/2) (5/2) (1/50)) (3/10) = 5 + (32/37)^2 / ((189/25) + (7/10) / 37 - 5 / 37^2)) by (unfold gK, gB, wood2; field).
    assert (K_1 : gK 5 37 (wood2 1 (5/2) (1/50)) (3/10) = 5 + (32/37)^2 / ((3/25) + (7/10) / 37 - 5 / 37^2)) by (unfold gK, gB, wood2; field).
    unfold g. rewrite K_0, K_h, K_1. split; (apply Rmult_le_compat_r; [lra|]); apply sqrt_le_1_alt; lra. }
  assert (S1 : forall z, seg (1/2) 1 z -> seg 0 1 z) by (unfold seg; intros; lra).
  destruct (ivt g (1/2) 1 (g 0) ltac:(lra) (rcont_sub _ _ g S1 CG) (or_introl L)) as (x & X & Ex).
  exists 0, x, (g 0). split; [unfold seg; lra|]. split; [apply S1, X|]. split; [unfold seg in X; lra|]. split; [apply EV; unfold seg; lra|]. rewrite EV by apply S1, X. rewrite Ex. reflexivity.
Qed.
Print Assumptions C90_vp_saturation_refuted.

(** Porosity from the velocity of a suspension of grains in a fluid (no frame): two porosities give the same velocity exactly
    when they add up to a fixed number. *)
Theorem C90_suspension : forall m K0 D0 Kf Df p q, 0 < Kf < K0 -> 0 < Df < D0 -> 0 < p <= 1 -> 0 < q <= 1 -> p <> q ->
  let vp phi := part1 (part1 (Fluid_vels m (Fin 0) (Fin 0) (Fin K0) (Fin D0) (Fin Kf) (Fin Df) (Fin phi))) in
  vp p = vp q <-> p + q = D0 / (D0 - Df) - Kf / (K0 - Kf).
Proof.
  intros m K0 D0 Kf Df p q HK HD Hp Hq N vp.
  set (C := fun x => (1 / K0 + x * (1 / Kf - 1 / K0)) * (D0 - x * (D0 - Df))).
  assert (IK : 1 / K0 < 1 / Kf) by (unfold Rdiv; rewrite !Rmult_1_l; apply Rinv_lt_contravar; [apply Rmult_lt_0_compat|]; lra).
  assert (I0 : 0 < 1 / K0) by (apply Rdiv_lt_0_compat; lra).
  assert (PC : forall x, 0 < x <= 1 -> 0 < 1 / K0 + x * (1 / Kf - 1 / K0) /\ 0 < D0 - x * (D0 - Df)).
  { intros x X. split; [assert (0 < x * (1 / Kf - 1 / K0)) by (apply Rmult_lt_0_compat; lra); lra|]. assert (x * (D0 - Df) <= 1 * (D0 - Df)) by (apply Rmult_le_compat_r; lra). lra. }
  assert (EV : forall x, 0 < x <= 1 -> vp x = Ret (Fin (sqrt (1 / C x) * 1000)) /\ 0 < C x).
  { intros x X. destruct (PC x X) as (A & B). assert (CP : 0 < C x) by (apply Rmult_lt_0_compat; assumption). split; [|exact CP]. unfold vp.
    assert (0 < D0 * (1 - x) + Df * x) by lra. rewrite vels_eval by lra. unfold part1. cbn [call fst]. do 4 f_equal.
    assert (EB : gB 0 K0 Kf x = 1 / K0 + x * (1 / Kf - 1 / K0)) by (unfold gB; field; lra).
    unfold gK. rewrite EB. unfold C. replace (D0 * (1 - x) + Df * x) with (D0 - x * (D0 - Df)) by ring.
    set (u := 1 / K0 + x * (1 / Kf - 1 / K0)) in *. set (v := D0 - x * (D0 - Df)) in *. field. lra. }
  destruct (EV p Hp) as (Ep & Cp), (EV q Hq) as (Eq & Cq). rewrite Ep, Eq.
  assert (D : C p - C q = (p - q) * ((1 / Kf - 1 / K0) * (D0 - Df)) * (D0 / (D0 - Df) - Kf / (K0 - Kf) - (p + q))) by (unfold C; field; lra).
  assert (Z : (1 / Kf - 1 / K0) * (D0 - Df) <> 0) by (apply Rmult_integral_contrapositive; lra).
  split.
  - intros [= E]. apply Rmult_eq_reg_r in E; [|lra]. apply sqrt_inj in E; [|left; apply Rdiv_lt_0_compat; lra|left; apply Rdiv_lt_0_compat; lra].
    assert (C p = C q). { apply (f_equal (fun t => / t)) in E. unfold Rdiv in E. rewrite !Rmult_1_l, !Rinv_inv in E. exact E. }
    assert (T : (p - q) * ((1 / Kf - 1 / K0) * (D0 - Df)) * (D0 / (D0 - Df) - Kf / (K0 - Kf) - (p + q)) = 0) by lra.
    apply Rmult_integral in T as [T|T]; [|lra]. apply Rmult_integral in T as [T|T]; [lra|contradiction].
  - intros E. assert (C p = C q). { replace (D0 / (D0 - Df) - Kf / (K0 - Kf) - (p + q)) with 0 in D by lra. rewrite Rmult_0_r in D. lra. }
    rewrite H. reflexivity.
Qed.
Print Assumptions C90_suspension.
(** Quartz grains in water. *)
Theorem C90_suspension_refuted : forall m,
  ambiguous (fun phi => part1 (part1 (Fluid_vels m (Fin 0) (Fin 0) (Fin 37) (Fin 2.65) (Fin 2.25) (Fin 1) phi))) (oseg 0 1).
Proof.
  intros m. set (t := 2.65 / (2.65 - 1) - 2.25 / (37 - 2.25)). assert (T : 1.54 < t < 1.55) by (unfold t; lra).
  assert (S := C90_suspension m 37 2.65 2.25 1 0.9 (t - 0.9) ltac:(lra) ltac:(lra) ltac:(lra) ltac:(lra) ltac:(lra)). cbv zeta in S.
  cbv beta in S. assert (E := proj2 S ltac:(unfold t; lra)).
  exists 0.9, (t - 0.9). eexists. split; [unfold oseg; lra|]. split; [unfold oseg; lra|]. split; [lra|].
  split; [rewrite vels_eval by lra; reflexivity|]. cbv beta. rewrite <- E, vels_eval by lra. reflexivity.
Qed.
Print Assumptions C90_suspension_refuted.

(** Depth from the segmented velocity trend: the two segments do not meet, so the velocities between them belong to no depth. *)
Theorem C90_yu_gap_refuted : (forall z v, Emp_yu_segment_trend [Fin z] = Ret [Fin v] -> ~ lseg 3443.798 3444.23 v) /\
  Emp_yu_segment_trend [Fin 2630] = Ret [Fin 3443.798].
Proof.
  assert (E : forall z, Emp_yu_segment_trend [Fin z] = Ret [Fin (yu_trend z)]).
  { intros z. apply (C60_yu_sorted [z]). repeat constructor. }
  split.
  - intros z v. rewrite E. intros [= <-]. unfold yu_trend, lseg. destruct (Rle_dec z 2630); lra.
  - rewrite E. unfold yu_trend. destruct (Rle_dec 2630 2630); [|lra]. do 3 f_equal. lra.
Qed.
Print Assumptions C90_yu_gap_refuted.

(** ** Concrete cases *)
(** A quartz sand of critical porosity 0.4, at a low stress: porosity read from its bulk modulus. *)
Example C90_sands_nonvacuous : exists sg Kh, 0 < sg /\
  reads_back (fun phi => part1 (GM_softsand PyFloat (Fin 37) (Fin 44) phi (Fin 0.4) (Fin 9) (Fin sg) (Fin 1))) (seg 0 0.4) (seg Kh 37).
Proof.
  destruct (hm_small PyFloat 37 44 0.4 9 1 37 44) as (sg & Ku & Gu & A & B & C & D); try lra. exists sg, Ku. split; [exact A|].
  apply (C90_sands PyFloat 37 44 0.4 9 sg 1 Ku Gu); auto; lra.
Qed.
Example C90_constant_cement_nonvacuous : exists Kc Gc Cn Kb,
  reads_back (fun phi => part1 (GM_constantcement NumPy (Fin 0.3) (Fin 2) (Fin 3) (Fin Kc) (Fin Gc) phi (Fin 0.4) (Fin Cn) 1)) (seg 0 0.3) (seg Kb 2).
Proof.
  destruct C64_nonvacuous as (sg & Ks & Gs & Kf & Gf & _ & _ & E & HK & HG & _). do 4 eexists.
  eapply (C90_constant_cement NumPy 2 3 _ _ 0.3 0.4 _ 1 Kf Gf E HK HG). lra.
Qed.
(** Quartz grains and quartz cement: cement volume (porosity lost) read from the shear modulus. *)
Example C90_contact_cement_nonvacuous : exists K1 G1 Kn Gn,
  reads_back (fun phi => part2 (GM_contactcement PyFloat (Fin 37) (Fin 44) (Fin 37) (Fin 44) phi (Fin 0.4) (Fin 9) 1)) (seg 0.36 0.4) (seg Gn G1) /\
  GM_contactcement PyFloat (Fin 37) (Fin 44) (Fin 37) (Fin 44) (Fin 0.36) (Fin 0.4) (Fin 9) 1 = Ret (Fin K1, Fin G1) /\
  GM_contactcement PyFloat (Fin 37) (Fin 44) (Fin 37) (Fin 44) (Fin 0.4) (Fin 0.4) (Fin 9) 1 = Ret (Fin Kn, Fin Gn).
Proof.
  destruct C38_nonvacuous as (A1 & A2 & A3 & A4 & A5 & A6).
  destruct (C38_dvorkin_nur PyFloat 37 44 37 44 0.36 0.4 9 1) as (K1 & G1 & E1 & _); try lra.
  destruct (C38_dvorkin_nur PyFloat 37 44 37 44 0.4 0.4 9 1) as (Kn & Gn & En & _); try lra.
  exists K1, G1, Kn, Gn. split; [|auto]. apply (C90_contact_cement PyFloat 37 44 37 44 0.36 0.4 9 1 K1 G1 Kn Gn); auto; lra.
Qed.
Example C90_gassmann_nonvacuous : exists K1,
  Fluid_Gassmann NumPy (Fin 12) (Fin 10) (Fin 37) (Fin 2.25) (Fin 1) = Ret (Fin K1, Fin 10) /\
  reads_back (fun Kf => part1 (Fluid_Gassmann NumPy (Fin 12) (Fin 10) (Fin 37) Kf (Fin 0.2))) (oseg 0 37) (oseg 12 37) /\
  reads_back (fun phi => part1 (Fluid_Gassmann NumPy (Fin 12) (Fin 10) (Fin 37) (Fin 2.25) phi)) (lseg 0 1) (rseg K1 37).
Proof.
  assert (b := gb_pos 12 37 ltac:(lra) ltac:(lra)). assert (B := gB_pos 12 37 2.25 1 ltac:(lra) ltac:(lra) ltac:(lra)).
  assert (E := Gassmann_eval NumPy 12 10 37 2.25 1 ltac:(lra) ltac:(lra) ltac:(lra)). exists (gK 12 37 2.25 1). split; [exact E|].
  destruct (C90_gassmann NumPy 12 10 37 2.25 0.2 (gK 12 37 2.25 1) ltac:(lra) ltac:(lra) ltac:(lra) E) as (R1 & _ & R3). auto.
Qed.
(** Brine saturation 1/2 and no other has the template's Vp/Vs of saturation 1/2. *)
Example C90_template_nonvacuous : exists ip ps,
  QI_rpt_point (Fin 5) (Fin 5) (Fin 37) (Fin 2.65) (Fin 2.5) (Fin 1) (Fin 0.02) (Fin 0.1) (Fin 0.3) (Fin (1/2)) = Ret (Fin ip, Fin ps) /\
  forall s, 0 <= s <= 1 -> (exists ip', QI_rpt_point (Fin 5) (Fin 5) (Fin 37) (Fin 2.65) (Fin 2.5) (Fin 1) (Fin 0.02) (Fin 0.1) (Fin 0.3) (Fin s) = Ret (ip', Fin ps)) -> s = 1/2.
Proof.
  destruct (C90_template 5 5 37 2.65 2.5 1 0.02 0.1 0.3) as (ip0 & ps0 & ip1 & ps1 & _ & _ & (T & U) & _); try lra.
  destruct (rpt_eval 5 5 37 2.65 2.5 1 0.02 0.1 0.3 (1/2)) as (E & _); try lra.
  do 2 eexists. split; [exact E|]. intros s Hs (ip' & Es).
  destruct (T (1/2)) as (y & Y & Ey); [unfold seg; lra|]. destruct (U y Y) as (x & X & Ex & N & _).
  cbv beta in *. rewrite E in Ey. unfold part2 in Ey at 1. cbn [call snd] in Ey. injection Ey as <-.
  rewrite (N (1/2)); [|unfold seg; lra|rewrite E; reflexivity]. apply N; [exact Hs|]. rewrite Es. reflexivity.
Qed.
Example C90_nonvacuous : 0 < 0.4 /\ 0 < 21 < 37 /\ 0 < 7 < 44 /\ 0.1 < 2.25 /\ 0 < 3 /\ 0 < 0.0002 /\ 0 <= 0.36 < 1 /\ 0 < 9 /\ 0 <= 1 <= 1. Proof. lra. Qed.
