(** * Property theorems about QI.py (C62-C64, C68). *)
From Coq Require Import Lra Lia Sorting.Sorted.
From Verif Require Import Fl M_Utils M_EM M_GM M_Fluid M_Emp M_QI Spec Spec3 Spec6 RealLemmas L_Lists L_Utils L_EM1 L_GM1 L_GM2 L_GM4 L_Fluid1 L_Fluid7 L_Emp L_QI.
Open Scope R_scope.

(** ** C62: matrix properties of a cemented shaly sand. *)
(** The shale, grain and cement fractions are volume fractions of the solid; the modulus is their Hill average and lies
    between the component moduli. The separate code path for clean sand agrees with the general formula. *)
Theorem C62_matrix_modulus m v pc p Ms Mg Mc : 0 <= v -> v <= 1 - pc -> p <= pc -> p < 1 -> 0 < Ms -> 0 < Mg -> 0 < Mc ->
  fractions (cemented v pc p) /\
  exists M, QI_matrix_modulus m (Fin v) (Fin pc) (Fin p) (Fin Ms) (Fin Mg) (Fin Mc) = Ret (Fin M) /\
    M = hill (cemented v pc p) [Ms; Mg; Mc] /\ between_some [Ms; Mg; Mc] M /\
    (Ms = Mg -> Mg = Mc -> M = Mg) /\ (v = 0 -> p = pc -> M = Mg) /\ (v = 1 - pc -> p = pc -> M = Ms).
Proof.
  intros H1 H2 H3 H4 P1 P2 P3. split; [apply cemented_fractions; assumption|].
  destruct (matrix_fin m v pc p Ms Mg Mc) as [E B]; auto. eexists. split; [exact E|]. split; [reflexivity|]. split; [exact B|].
  unfold hill, cemented. cbn [wsum map]. split; [|split].
  - intros -> ->. field_simplify_eq; [ring|]. repeat split; lra.
  - intros -> ->. match goal with |- context [/ (?a + ?b)] => replace (a + b) with (/ Mg) by (field; lra) end. rewrite Rinv_inv. field. lra.
  - intros -> ->. match goal with |- context [/ (?a + ?b)] => replace (a + b) with (/ Ms) by (field; lra) end. rewrite Rinv_inv. field. lra.
Qed.
(** More cement of a stiffer (softer) material than both others makes the matrix stiffer (softer). *)
Theorem C62_matrix_monotone m v pc p p' Ms Mg Mc M M' : 0 <= v -> v <= 1 - pc -> p < p' -> p' <= pc -> p' < 1 -> 0 < Ms -> 0 < Mg -> 0 < Mc ->
  QI_matrix_modulus m (Fin v) (Fin pc) (Fin p) (Fin Ms) (Fin Mg) (Fin Mc) = Ret (Fin M) ->
  QI_matrix_modulus m (Fin v) (Fin pc) (Fin p') (Fin Ms) (Fin Mg) (Fin Mc) = Ret (Fin M') ->
  (Ms <= Mc -> Mg <= Mc -> M' <= M) /\ (Mc <= Ms -> Mc <= Mg -> M <= M').
Proof.
  intros H1 H2 H3 H4 H5 P1 P2 P3. destruct (matrix_fin m v pc p Ms Mg Mc) as [-> _]; auto; try lra.
  destruct (matrix_fin m v pc p' Ms Mg Mc) as [-> _]; auto; try lra. intros [= <-] [= <-].
  assert (W : forall x y z, wsum (cemented v pc p) [x; y; z] - wsum (cemented v pc p') [x; y; z] = (p' - p) / ((1 - p) * (1 - p')) * (v * (z - x) + (1 - pc - v) * (z - y))).
  { intros. unfold cemented. cbn [wsum]. field. lra. }
  assert (C : 0 < (p' - p) / ((1 - p) * (1 - p'))) by (apply Rdiv_lt_0_compat; [lra|apply Rmult_lt_0_compat; lra]).
  assert (Q : forall q x y z, 0 < x -> 0 < y -> 0 < z -> q <= pc -> q < 1 -> 0 < wsum (cemented v pc q) [x; y; z]).
  { intros q x y z X Y Z Q1 Q2. unfold cemented. cbn [wsum]. replace (v / (1 - q) * x + ((1 - pc - v) / (1 - q) * y + ((pc - q) / (1 - q) * z + 0))) with ((v * x + (1 - pc - v) * y + (pc - q) * z) / (1 - q)) by (field; lra).
    apply Rdiv_lt_0_compat; [|lra]. assert (0 <= v * x) by (apply Rmult_le_pos; lra). assert (0 <= (1 - pc - v) * y) by (apply Rmult_le_pos; lra). assert (0 <= (pc - q) * z) by (apply Rmult_le_pos; lra).
    destruct (Rle_lt_or_eq_dec 0 (pc - q)); [lra| |].
    - assert (0 < (pc - q) * z) by (apply Rmult_lt_0_compat; lra). lra.
    - destruct (Rle_lt_or_eq_dec 0 v); [lra| |].
      + assert (0 < v * x) by (apply Rmult_lt_0_compat; lra). lra.
      + assert (0 < (1 - pc - v) * y) by (apply Rmult_lt_0_compat; lra). lra. }
  assert (I1 := Rinv_0_lt_compat _ P1). assert (I2 := Rinv_0_lt_compat _ P2). assert (I3 := Rinv_0_lt_compat _ P3).
  assert (Q1 := Q p _ _ _ I1 I2 I3 ltac:(lra) ltac:(lra)). assert (Q2 := Q p' _ _ _ I1 I2 I3 ltac:(lra) ltac:(lra)).
  assert (A := W Ms Mg Mc). assert (B := W (/ Ms) (/ Mg) (/ Mc)). unfold hill. cbn [map].
  set (c := (p' - p) / ((1 - p) * (1 - p'))) in *.
  split; intros L1 L2.
  - assert (0 <= c * (v * (Mc - Ms) + (1 - pc - v) * (Mc - Mg))) by (apply Rmult_le_pos; [lra|apply Rplus_le_le_0_compat; apply Rmult_le_pos; lra]).
    assert (/ Mc <= / Ms) by (apply Rinv_le_contravar; lra). assert (/ Mc <= / Mg) by (apply Rinv_le_contravar; lra).
    assert (0 <= c * (v * (/ Ms - / Mc) + (1 - pc - v) * (/ Mg - / Mc))) by (apply Rmult_le_pos; [lra|apply Rplus_le_le_0_compat; apply Rmult_le_pos; lra]).
    assert (/ wsum (cemented v pc p') [/ Ms; / Mg; / Mc] <= / wsum (cemented v pc p) [/ Ms; / Mg; / Mc]) by (apply Rinv_le_contravar; lra). lra.
  - assert (0 <= c * (v * (Ms - Mc) + (1 - pc - v) * (Mg - Mc))) by (apply Rmult_le_pos; [lra|apply Rplus_le_le_0_compat; apply Rmult_le_pos; lra]).
    assert (/ Ms <= / Mc) by (apply Rinv_le_contravar; lra). assert (/ Mg <= / Mc) by (apply Rinv_le_contravar; lra).
    assert (0 <= c * (v * (/ Mc - / Ms) + (1 - pc - v) * (/ Mc - / Mg))) by (apply Rmult_le_pos; [lra|apply Rplus_le_le_0_compat; apply Rmult_le_pos; lra]).
    assert (/ wsum (cemented v pc p) [/ Ms; / Mg; / Mc] <= / wsum (cemented v pc p') [/ Ms; / Mg; / Mc]) by (apply Rinv_le_contravar; lra). lra.
Qed.
(** Mass balance: solid density times solid fraction is the mass of shale, grain and cement. *)
Theorem C62_den_matrix m v pc p Ds Dg Dc : p <> 1 -> 0 < Ds -> 0 < Dg -> 0 < Dc -> exists D,
  QI_den_matrix m (Fin v) (Fin pc) (Fin p) (Fin Ds) (Fin Dg) (Fin Dc) = Ret (Fin D) /\
  (1 - p) * D = v * Ds + (1 - pc - v) * Dg + (pc - p) * Dc /\
  (0 <= v -> v <= 1 - pc -> p <= pc -> p < 1 -> between_some [Ds; Dg; Dc] D).
Proof.
  intros H P1 P2 P3. rewrite den_fin by assumption. eexists. split; [reflexivity|]. split.
  - unfold cemented. cbn [wsum]. field. lra.
  - intros H1 H2 H3 H4.
    destruct (VRH_main (cemented v pc p) [Ds; Dg; Dc] eq_refl (cemented_fractions _ _ _ H1 H2 H3 H4)) as (V & _ & _ & _ & -> & _ & _ & _ & _ & B & _); [repeat constructor; assumption|exact B].
Qed.
(** No solid at all: Python floats raise. *)
Theorem C62_no_solid_raises v pc Ms Mg Mc : QI_matrix_modulus PyFloat (Fin v) (Fin pc) (Fin 1) (Fin Ms) (Fin Mg) (Fin Mc) = Raise ZeroDivisionError /\
  QI_den_matrix PyFloat (Fin v) (Fin pc) (Fin 1) (Fin Ms) (Fin Mg) (Fin Mc) = Raise ZeroDivisionError.
Proof.
  unfold QI_matrix_modulus, QI_den_matrix. assert (E : QI_fractions PyFloat (Fin v) (Fin pc) (Fin 1) = Raise ZeroDivisionError).
  { unfold QI_fractions. rewrite !fsub_fin, bind_fin. rewrite Rminus_diag_eq by reflexivity. rewrite fdiv_zero_py_fin. reflexivity. }
  rewrite E. split; reflexivity.
Qed.
(** The shale volume is a fraction of the rock, not of the solid: without cement the solid holds v/(1-pc) of shale. The
    same [vsh] passed to screening is also used as a fraction of the solid there (see C64), and the two densities of the
    uncemented rock differ unless the sand is clean, has no pores, or shale and grain have one density. *)
Theorem C62_uncemented m v pc Ds Dg Dc D : pc <> 1 -> 0 < Ds -> 0 < Dg -> 0 < Dc ->
  QI_den_matrix m (Fin v) (Fin pc) (Fin pc) (Fin Ds) (Fin Dg) (Fin Dc) = Ret (Fin D) ->
  D = v / (1 - pc) * Ds + (1 - v / (1 - pc)) * Dg.
Proof. intros H P1 P2 P3. rewrite den_fin by assumption. intros [= <-]. unfold cemented. cbn [wsum]. field. lra. Qed.
Theorem C62_same_as_mineral_density_refuted m v pc Ds Dg Dc D : pc <> 1 -> 0 < Ds -> 0 < Dg -> 0 < Dc ->
  QI_den_matrix m (Fin v) (Fin pc) (Fin pc) (Fin Ds) (Fin Dg) (Fin Dc) = Ret (Fin D) ->
  v <> 0 -> pc <> 0 -> Ds <> Dg -> D <> v * Ds + (1 - v) * Dg.
Proof.
  intros H P1 P2 P3 E N1 N2 N3 C. rewrite (C62_uncemented m v pc Ds Dg Dc D H P1 P2 P3 E) in C.
  assert (X : v * pc * (Ds - Dg) = (1 - pc) * (v / (1 - pc) * Ds + (1 - v / (1 - pc)) * Dg - (v * Ds + (1 - v) * Dg))) by (field; lra).
  rewrite C in X. replace (v * Ds + (1 - v) * Dg - (v * Ds + (1 - v) * Dg)) with 0 in X by ring. rewrite Rmult_0_r in X.
  assert (v * pc * (Ds - Dg) <> 0); [|contradiction]. apply Rmult_integral_contrapositive. split; [apply Rmult_integral_contrapositive; auto|lra].
Qed.
(** A shale volume above 1 - pc (allowed by the docstring) leaves a negative grain volume, and the density leaves the
    range of the components. *)
Theorem C62_much_shale_refuted m v pc Ds Dg Dc D : pc < 1 -> 1 - pc < v -> 0 < Ds < Dg -> Ds < Dc ->
  QI_den_matrix m (Fin v) (Fin pc) (Fin pc) (Fin Ds) (Fin Dg) (Fin Dc) = Ret (Fin D) -> ~ between_some [Ds; Dg; Dc] D.
Proof.
  intros H L P1 P2 E. rewrite (C62_uncemented m v pc Ds Dg Dc D) by (auto; lra).
  assert (1 < v / (1 - pc)) by (apply lt_div_iff; lra).
  assert (v / (1 - pc) * Ds + (1 - v / (1 - pc)) * Dg < Ds) by nra.
  intros [A _]. unfold above_some in A. apply Exists_exists in A as (x & I & X). cbn [In] in I. destruct I as [<-|[<-|[<-|[]]]]; lra.
Qed.

(** ** C63: cement volume from velocities. *)
(** [lines s phi] is the P velocity of the line of cement volume [s] at porosity [phi]. If the lines are defined and
    distinct at each sample, estimate_cem returns one value per sample, read off the lines. *)
Theorem C63_estimate_cem (lines : R -> R -> R) (logs : list (R * R)) seeds Kqz Gqz Ksh Gsh phi_c Cn Kc Gc Db Kb scheme vsh Dsh Dqz Dc :
  seeds <> [] ->
  (forall s phi vp, In s seeds -> In (phi, vp) logs -> exists vs,
     QI_cal_v_const (Fin Dqz) (Fin Kqz) (Fin Gqz) (Fin Dsh) (Fin Ksh) (Fin Gsh) (Fin Dc) (Fin Kc) (Fin Gc) (Fin Db) (Fin Kb)
       (Fin (phi_c - s)) (Fin phi_c) (Fin vsh) (Fin phi) scheme = Ret (Fin (lines s phi), vs)) ->
  (forall phi vp, In (phi, vp) logs -> NoDup (map (fun s => lines s phi) seeds)) ->
  exists out, QI_estimate_cem (map (fun q => (Fin (fst q), Fin (snd q))) logs) (map Fin seeds) false
      (Fin Kqz) (Fin Gqz) (Fin Ksh) (Fin Gsh) (Fin phi_c) Cn (Fin Kc) (Fin Gc) (Fin Db) (Fin Kb) scheme (Fin vsh) (Fin Dsh) (Fin Dqz) (Fin Dc)
    = Ret (map Fin out) /\
    Forall2 (fun q c => cement_read (map (fun s => (s, lines s (fst q))) seeds) (snd q) c) logs out.
Proof.
  intros HS HL HN.
  assert (E := est_eq lines seeds Kqz Gqz Ksh Gsh phi_c Kc Gc Db Kb vsh Dsh Dqz Dc scheme Cn false (map (fun q => (fst q, Fin (snd q))) logs)).
  rewrite map_map in E. cbn [fst snd] in E. rewrite E. 2:{ intros s q Hs Hq. apply in_map_iff in Hq as ((phi & vp) & <- & Hq). exact (HL s phi vp Hs Hq). }
  clear E HL. rewrite oseq_maps. cbn [fst snd]. induction logs as [|q logs IH].
  - exists []. split; [reflexivity|constructor].
  - destruct IH as (out & E & F); [intros; eapply HN; right; eassumption|].
    destruct (est_read lines seeds q HS) as (c & Ec & R). { destruct q as [phi vp]. eapply HN. left. reflexivity. }
    exists (c :: out). split; [|constructor; assumption]. cbn [oseq map]. rewrite Ec. cbn [call]. rewrite E. reflexivity.
Qed.
(** What has been read: in order of velocity the estimate never leaves the cement volumes of the two neighbouring lines,
    and increasing lines give estimates between 0 and the larger of 0.1 and the greatest cement volume. *)
Theorem C63_read_between lines v c s a s' b : cement_read lines v c -> NoDup (map snd lines) ->
  In (s, a) lines -> In (s', b) lines -> a < v < b -> (forall p, In p lines -> snd p <= a \/ b <= snd p) ->
  (forall p0 L, lines = p0 :: L -> snd p0 < v /\ v < snd (last lines p0)) ->
  c = lerp a s b s' v /\ Rmin s s' <= c <= Rmax s s' /\ (s < s' -> s < c < s').
Proof.
  intros R N Ia Ib Hv HB HF.
  assert (E : c = lerp a s b s' v).
  { inversion R as [p0 L EL H|p0 L p1 EL H Hl H'|p0 L t x t' y EL H H' It Iy Hxy B]; subst.
    - destruct (HF _ _ eq_refl). lra.
    - destruct (HF _ _ eq_refl). lra.
    - assert (X : x = a). { destruct (HB _ It), (B _ Ia) as [|[|]]; cbn [snd] in *; lra. }
      assert (Y : y = b). { destruct (HB _ Iy), (B _ Ib) as [|[|]]; cbn [snd] in *; lra. }
      subst x y. assert (U : forall s1 s2 w, In (s1, w) (p0 :: L) -> In (s2, w) (p0 :: L) -> s1 = s2).
      { intros s1 s2 w I1 I2. assert (F1 := filter_unique _ _ _ N I1). assert (F2 := filter_unique _ _ _ N I2). congruence. }
      rewrite (U t s a), (U t' s' b) by assumption. reflexivity. }
  split; [exact E|]. assert (T : 0 < (v - a) / (b - a) < 1) by (split; [apply lt_div_iff|apply div_lt_iff]; lra).
  unfold lerp in E. set (t := (v - a) / (b - a)) in *. 
  assert (A1 := Rmin_l s s'). assert (A2 := Rmin_r s s'). assert (A3 := Rmax_l s s'). assert (A4 := Rmax_r s s').
  subst c. split; [|intros; nra]. split; [replace (s + t * (s' - s)) with ((1 - t) * s + t * s') by ring|replace (s + t * (s' - s)) with ((1 - t) * s + t * s') by ring].
  - assert ((1 - t) * Rmin s s' <= (1 - t) * s) by (apply Rmult_le_compat_l; lra). assert (t * Rmin s s' <= t * s') by (apply Rmult_le_compat_l; lra). lra.
  - assert ((1 - t) * s <= (1 - t) * Rmax s s') by (apply Rmult_le_compat_l; lra). assert (t * s' <= t * Rmax s s') by (apply Rmult_le_compat_l; lra). lra.
Qed.
Theorem C63_read_range lines v c : cement_read lines v c -> (forall p, In p lines -> 0 <= fst p <= 0.1) -> 0 <= c <= 0.1.
Proof.
  intros R H. inversion R as [p0 L EL X|p0 L p1 EL X Hl X'|p0 L t x t' y EL X X' It Iy Hxy B]; subst; [lra|lra|].
  assert (A1 := H _ It). assert (A2 := H _ Iy). cbn [fst] in *. unfold lerp.
  assert (T : 0 < (v - x) / (y - x) < 1) by (split; [apply lt_div_iff|apply div_lt_iff]; lra). nra.
Qed.
(** Refuted: a sample exactly on an inner line does not get that line's cement volume, unless the three neighbouring
    points happen to be collinear. *)
Theorem C63_on_a_line_refuted s1 s2 s3 a1 a2 a3 c : s1 < s2 < s3 -> a1 < a2 < a3 ->
  cement_read [(s1, a1); (s2, a2); (s3, a3)] a2 c -> c = lerp a1 s1 a3 s3 a2 /\ (c = s2 <-> (s2 - s1) * (a3 - a1) = (a2 - a1) * (s3 - s1)).
Proof.
  intros Hs Ha R. assert (E : c = lerp a1 s1 a3 s3 a2).
  { inversion R as [p0 L EL X|p0 L p1 EL X Hl X'|p0 L t x t' y EL X X' It Iy Hxy B]; subst.
    - injection EL as <- <-. cbn in X. lra.
    - injection EL as <- <-. cbn in X'. lra.
    - cbn [In] in It, Iy. destruct It as [It|[It|[It|[]]]], Iy as [Iy|[Iy|[Iy|[]]]]; injection It as <- <-; injection Iy as <- <-; try lra. }
  split; [exact E|]. rewrite E. unfold lerp. 
  assert (X : (a3 - a1) * (s1 + (a2 - a1) / (a3 - a1) * (s3 - s1) - s2) = (a2 - a1) * (s3 - s1) - (s2 - s1) * (a3 - a1)) by (field; lra).
  split; intros H.
  - rewrite H in X. lra.
  - assert (Y : (a3 - a1) * (s1 + (a2 - a1) / (a3 - a1) * (s3 - s1) - s2) = 0) by lra. apply Rmult_integral in Y. lra.
Qed.
(** A sample on or above the last line does not get that line's cement volume but 0.1, and a sample on or
    below the first line gets 0, whatever the seeds. *)
Theorem C63_end_lines p0 L v c : cement_read (p0 :: L) v c -> NoDup (map snd (p0 :: L)) ->
  (v <= snd p0 -> c = 0) /\ (snd p0 < v -> snd (last (p0 :: L) p0) <= v -> c = 0.1).
Proof.
  intros R N. inversion R as [q0 M EL X|q0 M p1 EL X Hl X'|q0 M t x t' y EL X X' It Iy Hxy B]; injection EL as <- <-; subst; split; intros; try lra; reflexivity.
Qed.
(** Refuted robustness: one sample without velocity (NaN) makes the whole call raise ValueError. *)
Theorem C63_missing_sample_raises (lines : R -> R -> R) (l1 : list (R * R)) phi0 (l2 : list (R * fl)) seeds Kqz Gqz Ksh Gsh phi_c Cn Kc Gc Db Kb scheme vsh Dsh Dqz Dc :
  seeds <> [] -> let logs := map (fun q => (fst q, Fin (snd q))) l1 ++ (phi0, NaN) :: l2 in
  (forall s phi vp, In s seeds -> In (phi, vp) logs -> exists vs,
     QI_cal_v_const (Fin Dqz) (Fin Kqz) (Fin Gqz) (Fin Dsh) (Fin Ksh) (Fin Gsh) (Fin Dc) (Fin Kc) (Fin Gc) (Fin Db) (Fin Kb)
       (Fin (phi_c - s)) (Fin phi_c) (Fin vsh) (Fin phi) scheme = Ret (Fin (lines s phi), vs)) ->
  (forall phi vp, In (phi, vp) l1 -> NoDup (map (fun s => lines s phi) seeds)) ->
  QI_estimate_cem (map (fun q => (Fin (fst q), snd q)) logs) (map Fin seeds) false
      (Fin Kqz) (Fin Gqz) (Fin Ksh) (Fin Gsh) (Fin phi_c) Cn (Fin Kc) (Fin Gc) (Fin Db) (Fin Kb) scheme (Fin vsh) (Fin Dsh) (Fin Dqz) (Fin Dc) = Raise ValueError.
Proof.
  intros HS logs HL HN. rewrite (est_eq lines); [|intros s [phi vp] Hs Hq; exact (HL s phi vp Hs Hq)].
  unfold logs. apply oseq_raise.
  - intros y Hy. apply in_map_iff in Hy as (q & <- & Hq). cbn [fst snd]. destruct (est_read lines seeds q HS) as (c & Ec & _); eauto.
    destruct q as [phi vp]. eapply HN. exact Hq.
  - cbn [fst snd]. destruct seeds as [|s ss]; [congruence|]. 
    assert (E : map (fun s => Fin (lines s phi0)) (s :: ss) = map Fin (lines s phi0 :: map (fun s => lines s phi0) ss)) by (cbn [map]; rewrite map_map; reflexivity).
    rewrite E. apply sample_nan.
Qed.
(** Refuted: the docstring allows a list of seeds, but a sample between the lines then raises TypeError. *)
Theorem C63_seed_list_refuted (lines : R -> R -> R) phi vp s0 seeds Kqz Gqz Ksh Gsh phi_c Cn Kc Gc Db Kb scheme vsh Dsh Dqz Dc :
  (forall s, In s (s0 :: seeds) -> exists vs,
     QI_cal_v_const (Fin Dqz) (Fin Kqz) (Fin Gqz) (Fin Dsh) (Fin Ksh) (Fin Gsh) (Fin Dc) (Fin Kc) (Fin Gc) (Fin Db) (Fin Kb)
       (Fin (phi_c - s)) (Fin phi_c) (Fin vsh) (Fin phi) scheme = Ret (Fin (lines s phi), vs)) ->
  lines s0 phi < vp -> vp < lines (last (s0 :: seeds) s0) phi ->
  QI_estimate_cem [(Fin phi, Fin vp)] (map Fin (s0 :: seeds)) true
      (Fin Kqz) (Fin Gqz) (Fin Ksh) (Fin Gsh) (Fin phi_c) Cn (Fin Kc) (Fin Gc) (Fin Db) (Fin Kb) scheme (Fin vsh) (Fin Dsh) (Fin Dqz) (Fin Dc) = Raise TypeError.
Proof.
  intros HL H0 H1. change [(Fin phi, Fin vp)] with (map (fun q : R * fl => (Fin (fst q), snd q)) [(phi, Fin vp)]).
  rewrite (est_eq lines); [|intros s q Hs [<-|[]]; exact (HL s Hs)]. cbn [oseq fst snd].
  assert (E : map (fun s => Fin (lines s phi)) (s0 :: seeds) = map Fin (lines s0 phi :: map (fun s => lines s phi) seeds)) by (cbn [map]; rewrite map_map; reflexivity).
  rewrite E, sample_list; [reflexivity|exact H0|].
  change (lines s0 phi :: map (fun s => lines s phi) seeds) with (map (fun s => lines s phi) (s0 :: seeds)).
  rewrite (last_map (fun s => lines s phi) (s0 :: seeds) s0). exact H1.
Qed.
(** The coordination number argument of estimate_cem and the cement density have no effect. *)
Theorem C63_ignored_arguments logs seeds b Kqz Gqz Ksh Gsh phi_c Cn Cn' Kc Gc Db Kb scheme vsh Dsh Dqz Dc Dc' :
  QI_estimate_cem logs seeds b Kqz Gqz Ksh Gsh phi_c Cn Kc Gc Db Kb scheme vsh Dsh Dqz Dc =
  QI_estimate_cem logs seeds b Kqz Gqz Ksh Gsh phi_c Cn' Kc Gc Db Kb scheme vsh Dsh Dqz Dc'.
Proof. reflexivity. Qed.
(** A constant-cement line: with [Kf], [Gf] the contact-cement frame at the porosity [b] where the cement ends, the line
    exists for 0 < phi <= b, with 0 < Vs < Vp, and the cement density has no effect on it. *)
Theorem C63_cal_v_const Dqz Kqz Gqz Dsh Ksh Gsh Kc Gc Db Kb b phi_c vsh phi scheme Kf Gf :
  0 <= vsh <= 1 -> 0 < Kqz -> 0 < Gqz -> 0 < Ksh -> 0 < Gsh -> 0 < Dqz -> 0 < Dsh -> 0 < Db ->
  let K0 := hill [vsh; 1 - vsh] [Ksh; Kqz] in let G0 := hill [vsh; 1 - vsh] [Gsh; Gqz] in
  GM_contactcement NumPy (Fin K0) (Fin G0) (Fin Kc) (Fin Gc) (Fin b) (Fin phi_c) (Fin (20 - 34 * phi_c + 14 * phi_c^2)) scheme = Ret (Fin Kf, Fin Gf) ->
  0 < Kf < K0 -> 0 < Gf < G0 -> 0 < Kb < K0 -> 0 < phi <= b -> b <= 1 ->
  exists Kd Gd vp vs,
    GM_constantcement NumPy (Fin b) (Fin K0) (Fin G0) (Fin Kc) (Fin Gc) (Fin phi) (Fin phi_c) (Fin (20 - 34 * phi_c + 14 * phi_c^2)) scheme = Ret (Fin Kd, Fin Gd) /\
    Fluid_vels NumPy (Fin Kd) (Fin Gd) (Fin K0) (Fin (vsh * Dsh + (1 - vsh) * Dqz)) (Fin Kb) (Fin Db) (Fin phi) =
      Ret (Fin vp, Fin vs, Fin ((1 - phi) * (vsh * Dsh + (1 - vsh) * Dqz) + phi * Db)) /\
    0 < vs < vp /\
    forall Dc', QI_cal_v_const (Fin Dqz) (Fin Kqz) (Fin Gqz) (Fin Dsh) (Fin Ksh) (Fin Gsh) Dc' (Fin Kc) (Fin Gc) (Fin Db) (Fin Kb) (Fin b) (Fin phi_c) (Fin vsh) (Fin phi) scheme
      = Ret (Fin vp, Fin vs).
Proof.
  intros Hv H1 H2 H3 H4 H5 H6 H7 K0 G0 HC HKf HGf HKb Hp Hb.
  destruct (line_frames K0 G0 Kc Gc b phi_c _ Kf Gf scheme HKf HGf HC phi Hp) as (Kd & Gd & Ku & Gu & E & _ & B1 & B2 & B3 & B4 & _).
  assert (D : 0 < vsh * Dsh + (1 - vsh) * Dqz). { destruct (Rle_lt_or_eq_dec 0 vsh); [lra| |subst; lra]. assert (0 < vsh * Dsh) by (apply Rmult_lt_0_compat; lra). assert (0 <= (1 - vsh) * Dqz) by (apply Rmult_le_pos; lra). lra. }
  assert (RH : 0 < (vsh * Dsh + (1 - vsh) * Dqz) * (1 - phi) + Db * phi).
  { assert (0 < Db * phi) by (apply Rmult_lt_0_compat; lra). assert (0 <= (vsh * Dsh + (1 - vsh) * Dqz) * (1 - phi)) by (apply Rmult_le_pos; lra). lra. }
  destruct (vels_order Kd Gd Kd Gd K0 (vsh * Dsh + (1 - vsh) * Dqz) Kb Db phi) as (vp & vs & _ & _ & EV & _ & L & _); try lra.
  exists Kd, Gd, vp, vs. split; [exact E|]. split. { rewrite EV. do 2 f_equal. f_equal. ring. } split; [exact L|]. intros Dc'.
  unfold QI_cal_v_const. rewrite mineral_fin by assumption. cbn [call]. unfold Emp_Cp. rewrite !fpown_fin, !fmul_fin, fsub_fin, fadd_fin, bind_fin. cbn [call].
  fold K0. fold G0. rewrite E. cbn [call]. replace (Dsh * vsh + Dqz * (1 - vsh)) with (vsh * Dsh + (1 - vsh) * Dqz) by ring. rewrite EV. reflexivity.
Qed.
(** As documented, zero porosity gives no P velocity (0/0 in Gassmann's equation); the S velocity is that of the mineral. *)
Theorem C63_zero_porosity_nan Dqz Kqz Gqz Dsh Ksh Gsh Dc Kc Gc Db Kb b phi_c vsh scheme Kf Gf :
  0 <= vsh <= 1 -> 0 < Kqz -> 0 < Gqz -> 0 < Ksh -> 0 < Gsh -> 0 < Dqz -> 0 < Dsh ->
  let K0 := hill [vsh; 1 - vsh] [Ksh; Kqz] in let G0 := hill [vsh; 1 - vsh] [Gsh; Gqz] in
  GM_contactcement NumPy (Fin K0) (Fin G0) (Fin Kc) (Fin Gc) (Fin b) (Fin phi_c) (Fin (20 - 34 * phi_c + 14 * phi_c^2)) scheme = Ret (Fin Kf, Fin Gf) ->
  0 < Kf -> 0 < Gf -> 0 < K0 -> 0 < G0 -> Kb <> 0 -> 0 < b ->
  QI_cal_v_const (Fin Dqz) (Fin Kqz) (Fin Gqz) (Fin Dsh) (Fin Ksh) (Fin Gsh) (Fin Dc) (Fin Kc) (Fin Gc) (Fin Db) (Fin Kb) (Fin b) (Fin phi_c) (Fin vsh) (Fin 0) scheme
  = Ret (NaN, Fin (sqrt (G0 / (vsh * Dsh + (1 - vsh) * Dqz)) * 1000)).
Proof.
  intros Hv H1 H2 H3 H4 H5 H6 K0 G0 HC HKf HGf PK PG HKb Hb.
  assert (D : 0 < vsh * Dsh + (1 - vsh) * Dqz). { destruct (Rle_lt_or_eq_dec 0 vsh); [lra| |subst; lra]. assert (0 < vsh * Dsh) by (apply Rmult_lt_0_compat; lra). assert (0 <= (1 - vsh) * Dqz) by (apply Rmult_le_pos; lra). lra. }
  unfold QI_cal_v_const. rewrite mineral_fin by assumption. cbn [call]. unfold Emp_Cp. rewrite !fpown_fin, !fmul_fin, fsub_fin, fadd_fin, bind_fin. cbn [call]. fold K0. fold G0.
  rewrite (constantcement_fin NumPy K0 G0 Kc Gc 0 b phi_c _ scheme Kf Gf HC) by lra. cbn [call].
  replace (0 / b) with 0 by (field; lra). rewrite !walpole_0 by (try assert (X := zK_pos Gf HGf); try assert (Y := zG_pos Kf Gf HKf HGf); lra).
  unfold Fluid_vels. rewrite !fsub_fin, !fmul_fin, fadd_fin, bind_fin. unfold Fluid_Gassmann.
  rewrite !fpown_fin, !fsub_fin. rewrite !fdiv_fin by (try apply pow_nonzero; lra). rewrite !fsub_fin, !fadd_fin, !fpown_fin, fsub_fin, !bind_fin.
  replace ((1 - K0 / K0)^2) with 0 by (field; lra). replace (0 / Kb + (1 - 0) / K0 - K0 / K0^2) with 0 by (field; lra).
  rewrite fdiv_zero_zero_np. cbn [fadd bind call fmul fdiv].
  replace ((Dsh * vsh + Dqz * (1 - vsh)) * (1 - 0) + Db * 0) with (vsh * Dsh + (1 - vsh) * Dqz) by ring.
  destruct (Req_EM_T (vsh * Dsh + (1 - vsh) * Dqz) 0); [lra|]. cbn [fsqrt fmul bind]. 
  assert (0 <= G0 / (vsh * Dsh + (1 - vsh) * Dqz)) by (left; apply Rdiv_lt_0_compat; lra).
  destruct (Rle_dec 0 (G0 / (vsh * Dsh + (1 - vsh) * Dqz))); [|contradiction]. reflexivity.
Qed.
(** cst_vels: the same line with the density of the cemented matrix. Beyond the cement porosity it is NaN; the mineral
    density argument has no effect; and it is not the line of cal_v_const: the squared velocities are in the inverse ratio
    of the two bulk densities. *)
Theorem C63_cst_vels m b K0 G0 phi phi_c Cn Kc Gc Db Kb scheme vsh Dsh Dqz Dc Kf Gf :
  GM_contactcement NumPy (Fin K0) (Fin G0) (Fin Kc) (Fin Gc) (Fin b) (Fin phi_c) (Fin Cn) scheme = Ret (Fin Kf, Fin Gf) ->
  0 < Kf < K0 -> 0 < Gf < G0 -> 0 < Kb < K0 -> 0 < phi <= b -> b < 1 -> b <= phi_c -> 0 <= vsh -> vsh <= 1 - phi_c -> 0 < Dsh -> 0 < Dqz -> 0 < Dc -> 0 < Db ->
  exists D vp vs, QI_den_matrix m (Fin vsh) (Fin phi_c) (Fin b) (Fin Dsh) (Fin Dqz) (Fin Dc) = Ret (Fin D) /\ 0 < vs < vp /\
    (forall D0, QI_cst_vels m (Fin b) (Fin K0) D0 (Fin G0) (Fin phi) (Fin phi_c) (Fin Cn) (Fin Kc) (Fin Gc) (Fin Db) (Fin Kb) scheme (Fin vsh) (Fin Dsh) (Fin Dqz) (Fin Dc) = Ret (Fin vp, Fin vs)) /\
    forall Kd Gd D' vp' vs', 0 < D' ->
      GM_constantcement NumPy (Fin b) (Fin K0) (Fin G0) (Fin Kc) (Fin Gc) (Fin phi) (Fin phi_c) (Fin Cn) scheme = Ret (Fin Kd, Fin Gd) ->
      Fluid_vels NumPy (Fin Kd) (Fin Gd) (Fin K0) (Fin D') (Fin Kb) (Fin Db) (Fin phi) = Ret (Fin vp', Fin vs', Fin ((1 - phi) * D' + phi * Db)) ->
      vp^2 * ((1 - phi) * D + phi * Db) = vp'^2 * ((1 - phi) * D' + phi * Db) /\
      vs^2 * ((1 - phi) * D + phi * Db) = vs'^2 * ((1 - phi) * D' + phi * Db).
Proof.
  intros HC HKf HGf HKb Hp Hb Hbc Hv Hv2 P1 P2 P3 P4.
  destruct (line_frames K0 G0 Kc Gc b phi_c _ Kf Gf scheme HKf HGf HC phi Hp) as (Kd & Gd & Ku & Gu & E & _ & B1 & B2 & B3 & B4 & _).
  destruct (C62_den_matrix m vsh phi_c b Dsh Dqz Dc) as (D & ED & MB & BT); try lra.
  assert (PD : 0 < D). { destruct (BT Hv Hv2 Hbc Hb) as [A _]. unfold above_some in A. apply Exists_exists in A as (x & I & X). cbn [In] in I. destruct I as [<-|[<-|[<-|[]]]]; lra. }
  assert (P : 0 < Db * phi) by (apply Rmult_lt_0_compat; lra).
  assert (RH : forall D', 0 < D' -> 0 < D' * (1 - phi) + Db * phi). { intros D' HD. assert (0 <= D' * (1 - phi)) by (apply Rmult_le_pos; lra). lra. }
  assert (RD := RH D PD).
  destruct (vels_order Kd Gd Kd Gd K0 D Kb Db phi) as (vp & vs & _ & _ & EV & _ & L & _); try lra.
  exists D, vp, vs. split; [exact ED|]. split; [exact L|]. split.
  - intros D0. unfold QI_cst_vels. rewrite E. cbn [call]. rewrite ED. cbn [call]. rewrite EV. cbn [call]. unfold mask_gt, fltb. cbn [fcmp]. rewrite Rltb_false by lra. reflexivity.
  - intros Kd' Gd' D' vp' vs' HD' E' EV'. rewrite E in E'. injection E' as <- <-. assert (RD' := RH D' HD').
    rewrite (vels_eval NumPy Kd Gd K0 phi ltac:(lra) ltac:(lra) ltac:(lra)) in EV, EV' by lra.
    injection EV as <- <-. injection EV' as <- <-.
    destruct (gK_range Kd K0 Kb phi ltac:(lra) ltac:(lra) ltac:(lra) ltac:(lra)) as [R1 _].
    assert (S : forall x r, 0 < x -> 0 < r -> (sqrt (x / r) * 1000)^2 * r = 1000000 * x).
    { intros x r Hx Hr. rewrite Rpow_mult_distr, pow2_sqrt by (left; apply Rdiv_lt_0_compat; assumption). field. lra. }
    replace ((1 - phi) * D + phi * Db) with (D * (1 - phi) + Db * phi) by ring.
    replace ((1 - phi) * D' + phi * Db) with (D' * (1 - phi) + Db * phi) by ring. rewrite !S by lra. split; reflexivity.
Qed.
Theorem C63_cst_vels_beyond b K0 G0 phi phi_c Cn Kc Gc Db Kb scheme vsh Dsh Dqz Dc m D0 vp vs : b < phi ->
  QI_cst_vels m (Fin b) K0 D0 G0 (Fin phi) phi_c Cn Kc Gc Db Kb scheme vsh Dsh Dqz Dc = Ret (vp, vs) -> vp = NaN /\ vs = NaN.
Proof.
  intros Hb H. unfold QI_cst_vels in H. apply call_inv in H as ((k & g) & _ & H). apply call_inv in H as (D & _ & H).
  apply call_inv in H as (((p & s) & r) & _ & H). apply call_inv in H as (p' & M1 & H). apply call_inv in H as (s' & M2 & H). injection H as <- <-.
  apply mask_gt_fin in M1 as [M1 _], M2 as [M2 _]. auto.
Qed.

(** ** C64: screening bounds and normalisation. *)
(** The table always exists for numbers (contact cement Poisson ratio defined, cement threshold below the critical
    porosity): 100 equally spaced porosities from 1e-7 to the critical porosity. The first pair of velocities is the brine
    saturated friable sand, the second the increasing-cement (MUHS) rock up to the threshold and NaN above, the third the
    contact cement rock from the threshold and NaN below. *)
Theorem C64_screening Dqz Kqz Gqz Dsh Ksh Gsh Dc Kc Gc Db Kb b phi_c sigma vsh scheme f Cn :
  0 < Kc -> 0 < Gc -> b <= phi_c -> phi_c < 1 -> 0 < Cn -> 0 <= vsh <= 1 -> 0 < Kqz -> 0 < Gqz -> 0 < Ksh -> 0 < Gsh ->
  let K0 := Fin (hill [vsh; 1 - vsh] [Ksh; Kqz]) in let G0 := Fin (hill [vsh; 1 - vsh] [Gsh; Gqz]) in let D0 := Fin (vsh * Dsh + (1 - vsh) * Dqz) in
  exists phis rows, QI_screening (Fin Dqz) (Fin Kqz) (Fin Gqz) (Fin Dsh) (Fin Ksh) (Fin Gsh) (Fin Dc) (Fin Kc) (Fin Gc) (Fin Db) (Fin Kb)
      (Fin b) (Fin phi_c) (Fin sigma) (Fin vsh) scheme (Fin f) (Fin Cn) = Ret (map Fin phis, rows) /\
    length phis = 100%nat /\ length rows = 100%nat /\
    (forall i, (i < 100)%nat -> nth i phis 0 = 1e-7 + INR i * ((phi_c - 1e-7) / 99)) /\
    forall i vp1 vp2 vp3 vs1 vs2 vs3, (i < 100)%nat -> nth_error rows i = Some (vp1, vp2, vp3, vs1, vs2, vs3) -> let phi := nth i phis 0 in
      (exists Kd Gd rho, GM_softsand NumPy K0 G0 (Fin phi) (Fin phi_c) (Fin Cn) (Fin sigma) (Fin f) = Ret (Kd, Gd) /\
         Fluid_vels NumPy Kd Gd K0 D0 (Fin Kb) (Fin Db) (Fin phi) = Ret (vp1, vs1, rho)) /\
      (phi <= b -> exists Kd Gd rho, GM_MUHS NumPy K0 G0 (Fin Kc) (Fin Gc) (Fin phi) (Fin b) (Fin phi_c) (Fin Cn) scheme = Ret (Kd, Gd) /\
         Fluid_vels NumPy Kd Gd K0 D0 (Fin Kb) (Fin Db) (Fin phi) = Ret (vp2, vs2, rho)) /\
      (b < phi -> vp2 = NaN /\ vs2 = NaN) /\
      (b <= phi -> exists Kd Gd K D rho, GM_contactcement NumPy K0 G0 (Fin Kc) (Fin Gc) (Fin phi) (Fin phi_c) (Fin Cn) scheme = Ret (Kd, Gd) /\
         QI_matrix_modulus NumPy (Fin vsh) (Fin phi_c) (Fin phi) (Fin Ksh) (Fin Kqz) (Fin Kc) = Ret K /\
         QI_den_matrix NumPy (Fin vsh) (Fin phi_c) (Fin phi) (Fin Dsh) (Fin Dqz) (Fin Dc) = Ret D /\
         Fluid_vels NumPy Kd Gd K D (Fin Kb) (Fin Db) (Fin phi) = Ret (vp3, vs3, rho)) /\
      (phi < b -> vp3 = NaN /\ vs3 = NaN).
Proof.
  intros C1 C2 C3 C4 C5 Hv P1 P2 P3 P4 K0 G0 D0.
  destruct (screening_total Dqz Kqz Gqz Dsh Ksh Gsh Dc Kc Gc Db Kb b phi_c sigma vsh scheme f Cn) as (phis & rows & E).
  exists (map (fun i => 1e-7 + INR i * ((phi_c - 1e-7) / 99)) (seq 0 100)), rows.
  assert (E0 := E). unfold QI_screening in E0. rewrite mineral_fin in E0 by assumption. cbn [call] in E0. rewrite linspace_fin in E0 by lia.
  apply call_inv in E0 as (r & E1 & E2). apply ret_pair in E2 as [E2 E3]. subst r. apply oseq_inv in E1.
  assert (EP : phis = map Fin (map (fun i => 1e-7 + INR i * ((phi_c - 1e-7) / 99)) (seq 0 100))).
  { rewrite <- E2, map_map. apply map_ext. intros i. apply f_equal. replace (INR (100 - 1)) with 99 by (rewrite INR_IZR_INZ; reflexivity). lra. }
  split; [rewrite E, EP; reflexivity|]. split; [rewrite map_length, seq_length; reflexivity|].
  split; [apply Forall2_len in E1; rewrite map_length, seq_length in E1; auto|].
  assert (NT : forall i, (i < 100)%nat -> nth i (map (fun i => 1e-7 + INR i * ((phi_c - 1e-7) / 99)) (seq 0 100)) 0 = 1e-7 + INR i * ((phi_c - 1e-7) / 99)).
  { intros i Hi. rewrite (nth_indep _ 0 (1e-7 + INR 0 * ((phi_c - 1e-7) / 99))) by (rewrite map_length, seq_length; exact Hi).
    rewrite (map_nth (fun i => 1e-7 + INR i * ((phi_c - 1e-7) / 99)) (seq 0 100) 0%nat i). rewrite seq_nth by exact Hi. reflexivity. }
  split; [exact NT|]. intros i vp1 vp2 vp3 vs1 vs2 vs3 Hi Hr phi.
  assert (ER : QI_screening_elem NumPy K0 G0 (Fin (Dsh * vsh + Dqz * (1 - vsh))) (Fin Dqz) (Fin Kqz) (Fin Dsh) (Fin Ksh) (Fin Dc) (Fin Kc) (Fin Gc) (Fin Db) (Fin Kb) (Fin b) (Fin phi_c) (Fin sigma) (Fin vsh) scheme (Fin f) (Fin Cn) (Fin phi) = Ret (vp1, vp2, vp3, vs1, vs2, vs3)).
  { assert (NE : nth_error (map (fun i0 => Fin (1/10000000 + INR i0 * ((phi_c - 1/10000000) / INR (100 - 1)))) (seq 0 100)) i = Some (Fin phi)).
    { erewrite map_nth_error; [|rewrite (nth_error_nth' _ 0%nat); [reflexivity|rewrite seq_length; exact Hi]]. rewrite seq_nth by exact Hi. do 2 f_equal. unfold phi. rewrite NT by exact Hi.
      replace (INR (100 - 1)) with 99 by (rewrite INR_IZR_INZ; reflexivity). cbn [Nat.add]. lra. }
    clearbody phi. clear - E1 NE Hr. revert i NE Hr. induction E1 as [|x y l l' H HF IH]; intros [|i]; cbn [nth_error]; try discriminate.
    - intros [= ->] [= ->]. exact H.
    - apply IH. }
  replace (Dsh * vsh + Dqz * (1 - vsh)) with (vsh * Dsh + (1 - vsh) * Dqz) in ER by ring. fold D0 in ER.
  apply screening_elem in ER as (A & (Kd2 & Gd2 & p2 & s2 & r2 & B1 & B2 & B3 & B4) & (Kd3 & Gd3 & K & D & p3 & s3 & r3 & F1 & F2 & F3 & F4 & F5 & F6)).
  split; [exact A|]. split; [|split; [exact B4|split; [|exact F6]]].
  - intros L. destruct (B3 L) as [-> ->]. eauto.
  - intros L. destruct (F5 L) as [-> ->]. exists Kd3, Gd3, K, D, r3. auto.
Qed.
(** A constant-cement line that ends at the threshold lies below the second bound, in both velocities. *)
Theorem C64_line_below_bound K0 G0 D0 Kc Gc Db Kb b phi_c Cn scheme Kf Gf phi :
  GM_contactcement NumPy (Fin K0) (Fin G0) (Fin Kc) (Fin Gc) (Fin b) (Fin phi_c) (Fin Cn) scheme = Ret (Fin Kf, Fin Gf) ->
  0 < Kf < K0 -> 0 < Gf < G0 -> 0 < Kb < K0 -> 0 < phi <= b -> b <= 1 -> 0 < D0 -> 0 < Db ->
  exists Kl Gl Ku Gu vp vs vp2 vs2 rho,
    GM_constantcement NumPy (Fin b) (Fin K0) (Fin G0) (Fin Kc) (Fin Gc) (Fin phi) (Fin phi_c) (Fin Cn) scheme = Ret (Fin Kl, Fin Gl) /\
    GM_MUHS NumPy (Fin K0) (Fin G0) (Fin Kc) (Fin Gc) (Fin phi) (Fin b) (Fin phi_c) (Fin Cn) scheme = Ret (Fin Ku, Fin Gu) /\
    Fluid_vels NumPy (Fin Kl) (Fin Gl) (Fin K0) (Fin D0) (Fin Kb) (Fin Db) (Fin phi) = Ret (Fin vp, Fin vs, Fin rho) /\
    Fluid_vels NumPy (Fin Ku) (Fin Gu) (Fin K0) (Fin D0) (Fin Kb) (Fin Db) (Fin phi) = Ret (Fin vp2, Fin vs2, Fin rho) /\
    0 < vs < vp /\ vp <= vp2 /\ vs <= vs2.
Proof.
  intros HC HKf HGf HKb Hp Hb HD HDb.
  destruct (line_frames K0 G0 Kc Gc b phi_c _ Kf Gf scheme HKf HGf HC phi Hp) as (Kl & Gl & Ku & Gu & E & E' & B1 & B2 & B3 & B4 & _).
  assert (RH : 0 < D0 * (1 - phi) + Db * phi).
  { assert (0 < Db * phi) by (apply Rmult_lt_0_compat; lra). assert (0 <= D0 * (1 - phi)) by (apply Rmult_le_pos; lra). lra. }
  destruct (vels_order Kl Gl Ku Gu K0 D0 Kb Db phi) as (vp & vs & vp2 & vs2 & EV & EV' & L & L1 & L2 & _); try lra.
  exists Kl, Gl, Ku, Gu, vp, vs, vp2, vs2. eexists. eauto 10.
Qed.
(** The first bound is below the second wherever both exist, provided it is at the threshold: if the friable sand of
    porosity [b] is no stiffer than the contact-cement sand, then the whole friable-sand line is below. *)
Theorem C64_bounds_ordered K0 G0 D0 Kc Gc Db Kb b phi_c Cn scheme sigma f Ks Gs Kf Gf phi :
  0 < phi_c < 1 -> 0 < Cn -> 0 < sigma -> 0 <= f <= 1 -> 0 < phi <= b -> b <= phi_c ->
  GM_softsand NumPy (Fin K0) (Fin G0) (Fin b) (Fin phi_c) (Fin Cn) (Fin sigma) (Fin f) = Ret (Fin Ks, Fin Gs) ->
  GM_contactcement NumPy (Fin K0) (Fin G0) (Fin Kc) (Fin Gc) (Fin b) (Fin phi_c) (Fin Cn) scheme = Ret (Fin Kf, Fin Gf) ->
  0 < Kf < K0 -> 0 < Gf < G0 -> Ks <= Kf -> Gs <= Gf -> 0 < Kb < K0 -> 0 < D0 -> 0 < Db ->
  exists K1 G1 K2 G2 vp1 vs1 vp2 vs2 rho,
    GM_softsand NumPy (Fin K0) (Fin G0) (Fin phi) (Fin phi_c) (Fin Cn) (Fin sigma) (Fin f) = Ret (Fin K1, Fin G1) /\
    GM_MUHS NumPy (Fin K0) (Fin G0) (Fin Kc) (Fin Gc) (Fin phi) (Fin b) (Fin phi_c) (Fin Cn) scheme = Ret (Fin K2, Fin G2) /\
    Fluid_vels NumPy (Fin K1) (Fin G1) (Fin K0) (Fin D0) (Fin Kb) (Fin Db) (Fin phi) = Ret (Fin vp1, Fin vs1, Fin rho) /\
    Fluid_vels NumPy (Fin K2) (Fin G2) (Fin K0) (Fin D0) (Fin Kb) (Fin Db) (Fin phi) = Ret (Fin vp2, Fin vs2, Fin rho) /\
    0 < vs1 < vp1 /\ vp1 <= vp2 /\ vs1 <= vs2.
Proof.
  intros Hc HCn Hs Hf Hp Hb ES HC HKf HGf LK LG HKb HD HDb.
  destruct (soft_line K0 G0 phi_c Cn sigma f b Ks Gs) as (PK & PG & z & z' & Z & Z' & E); try lra; auto.
  assert (T : 0 < phi / b <= 1) by (split; [apply lt_div_iff|apply div_le_iff]; lra).
  assert (RH : 0 < D0 * (1 - phi) + Db * phi).
  { assert (0 < Db * phi) by (apply Rmult_lt_0_compat; lra). assert (0 <= D0 * (1 - phi)) by (apply Rmult_le_pos; lra). lra. }
  rewrite (E phi Hp). rewrite (MUHS_fin NumPy K0 G0 Kc Gc phi b phi_c Cn scheme Kf Gf HC) by lra.
  assert (A1 := walpole_in z (phi / b) Ks K0 ltac:(lra) ltac:(lra) T). assert (A2 := walpole_in z' (phi / b) Gs G0 ltac:(lra) ltac:(lra) T).
  assert (A3 := walpole_in (zK G0) (phi / b) Kf K0 ltac:(lra) HKf T).
  assert (A4 : walpole z (phi / b) Ks K0 <= walpole (zK G0) (phi / b) Kf K0).
  { apply Rle_trans with (walpole z (phi / b) Kf K0); [apply walpole_mono; lra|apply walpole_mono_z; lra]. }
  assert (A5 : walpole z' (phi / b) Gs G0 <= walpole (zG K0 G0) (phi / b) Gf G0).
  { apply Rle_trans with (walpole z' (phi / b) Gf G0); [apply walpole_mono; lra|apply walpole_mono_z; lra]. }
  destruct (vels_order (walpole z (phi / b) Ks K0) (walpole z' (phi / b) Gs G0) (walpole (zK G0) (phi / b) Kf K0) (walpole (zG K0 G0) (phi / b) Gf G0) K0 D0 Kb Db phi)
    as (vp & vs & vp2 & vs2 & EV & EV' & L & L1 & L2 & _); try lra.
  do 9 eexists. eauto 10.
Qed.
(** Refuted: the bounds are not ordered for every stress. Whatever the minerals, a high enough stress makes the friable
    sand ("lower bound") faster in shear than the contact-cement sand ("upper bound") at the critical porosity. *)
Theorem C64_bounds_ordered_refuted Dqz Kqz Gqz Dsh Ksh Gsh Dc Kc Gc Db Kb b phi_c vsh scheme f Cn :
  0 < Kc -> 0 < Gc -> b <= phi_c -> 0 < phi_c < 1 -> 0 < Cn -> 0 <= vsh <= 1 - phi_c -> 0 < Kqz -> 0 < Gqz -> 0 < Ksh -> 0 < Gsh ->
  0 < Dqz -> 0 < Dsh -> 0 < Dc -> 0 < Db -> 0 <= f <= 1 ->
  exists sigma0, 0 < sigma0 /\ forall sigma phis rows, sigma0 < sigma ->
    QI_screening (Fin Dqz) (Fin Kqz) (Fin Gqz) (Fin Dsh) (Fin Ksh) (Fin Gsh) (Fin Dc) (Fin Kc) (Fin Gc) (Fin Db) (Fin Kb)
      (Fin b) (Fin phi_c) (Fin sigma) (Fin vsh) scheme (Fin f) (Fin Cn) = Ret (phis, rows) ->
    exists vp1 vp2 vp3 vs1 vs2 vs3, nth_error rows 99 = Some (vp1, vp2, vp3, Fin vs1, vs2, Fin vs3) /\ vs3 < vs1.
Proof.
  intros P1 P2 Hb Hc HCn Hv P3 P4 P5 P6 P7 P8 P9 P10 Hf.
  set (K0 := hill [vsh; 1 - vsh] [Ksh; Kqz]). set (G0 := hill [vsh; 1 - vsh] [Gsh; Gqz]).
  assert (PK : 0 < K0). { destruct (hill2_bounds vsh Ksh Kqz) as [B _]; try lra. assert (0 < Rmin Ksh Kqz) by (apply Rmin_glb_lt; assumption). unfold K0. lra. }
  assert (PG : 0 < G0). { destruct (hill2_bounds vsh Gsh Gqz) as [B _]; try lra. assert (0 < Rmin Gsh Gqz) by (apply Rmin_glb_lt; assumption). unfold G0. lra. }
  destruct (C62_den_matrix NumPy vsh phi_c phi_c Dsh Dqz Dc) as (D & ED & MB & BT); try lra.
  assert (PD : 0 < D). { destruct (BT ltac:(lra) ltac:(lra) ltac:(lra) ltac:(lra)) as [A _]. unfold above_some in A. apply Exists_exists in A as (x & I & X). cbn [In] in I. destruct I as [<-|[<-|[<-|[]]]]; lra. }
  set (D0 := vsh * Dsh + (1 - vsh) * Dqz).
  assert (PD0 : 0 < D0). { unfold D0. assert (0 <= vsh * Dsh) by (apply Rmult_le_pos; lra). assert (0 < (1 - vsh) * Dqz) by (apply Rmult_lt_0_compat; lra). lra. }
  set (rho := D0 * (1 - phi_c) + Db * phi_c). set (rho' := D * (1 - phi_c) + Db * phi_c).
  assert (PR : 0 < rho) by (unfold rho; apply Rplus_lt_0_compat; apply Rmult_lt_0_compat; lra).
  assert (PR' : 0 < rho') by (unfold rho'; apply Rplus_lt_0_compat; apply Rmult_lt_0_compat; lra).
  set (Gk := ccG K0 G0 Kc Gc phi_c Cn 0). assert (HK3 := K3_pos K0 G0 phi_c Cn PK PG ltac:(lra) HCn 1 ltac:(lra)).
  assert (HGK := GK_pos K0 G0 PK PG f Hf). set (X := (Rabs Gk + 1) * rho / rho' / hertz_GK K0 G0 f).
  assert (PX : 0 < X). { unfold X. assert (Y := Rabs_pos Gk). repeat apply Rdiv_lt_0_compat; try assumption. apply Rmult_lt_0_compat; lra. }
  assert (PX3 : 0 < X^3) by (apply pow_lt; exact PX).
  exists (1000 * (X^3 / hertz_K3 K0 G0 phi_c Cn 1)). assert (PS : 0 < X^3 / hertz_K3 K0 G0 phi_c Cn 1) by (apply Rdiv_lt_0_compat; assumption). split; [lra|].
  intros sigma phis rows Hs E.
  destruct (C64_screening Dqz Kqz Gqz Dsh Ksh Gsh Dc Kc Gc Db Kb b phi_c sigma vsh scheme f Cn) as (ps & rs & E' & L1 & L2 & N & RW); try lra.
  rewrite E in E'. apply ret_pair in E' as [-> ->].
  destruct (nth_error rs 99) as [[[[[[vp1 vp2] vp3] vs1] vs2] vs3]|] eqn:NE; [|apply nth_error_None in NE; rewrite L2 in NE; lia].
  assert (EP : nth 99 ps 0 = phi_c). { rewrite N by lia. replace (INR 99) with 99 by (rewrite INR_IZR_INZ; reflexivity). lra. }
  specialize (RW 99%nat vp1 vp2 vp3 vs1 vs2 vs3 ltac:(lia) NE). rewrite EP in RW. cbv zeta in RW. fold K0 in RW. fold G0 in RW. fold D0 in RW.
  destruct RW as ((Kd & Gd & r & S & V) & _ & _ & C & _). destruct (C Hb) as (Kd3 & Gd3 & K & D' & r3 & S3 & _ & ED' & V3). clear C.
  rewrite ED in ED'. injection ED' as <-.
  rewrite softsand_fin in S by lra. cbv zeta in S. replace (phi_c / phi_c) with 1 in S by (field; lra).
  set (Kh := cbrt (hertz_K3 K0 G0 phi_c Cn (sigma / 1000))) in *.
  assert (PKh : 0 < Kh) by (apply cbrt_pos, K3_pos; lra).
  assert (PGh : 0 < hertz_GK K0 G0 f * Kh) by (apply Rmult_lt_0_compat; assumption).
  rewrite !walpole_1 in S. 2:{ assert (A := zG_pos Kh _ PKh PGh). lra. } 2:{ assert (A := zK_pos _ PGh). lra. }
  injection S as <- <-. rewrite contactcement_fin in S3 by lra. cbv zeta in S3. rewrite Rminus_diag_eq, radius_0 in S3 by reflexivity. injection S3 as <- <-.
  apply vels_vs in V; [|lra|exact PR].
  assert (BIG : X < Kh).
  { apply cube_lt_inv. unfold Kh. rewrite cbrt_cube by (left; apply K3_pos; lra).
    replace (hertz_K3 K0 G0 phi_c Cn (sigma / 1000)) with (hertz_K3 K0 G0 phi_c Cn 1 * (sigma / 1000)) by (unfold hertz_K3; unfold Rdiv; ring).
    rewrite Rmult_comm. apply (div_lt_iff _ _ _ HK3). lra. }
  assert (SH : (Rabs Gk + 1) / rho' < hertz_GK K0 G0 f * Kh / rho).
  { apply lt_div_iff; [exact PR|]. replace ((Rabs Gk + 1) / rho' * rho) with (hertz_GK K0 G0 f * X) by (unfold X; field; lra). apply Rmult_lt_compat_l; assumption. }
  fold Gk in V3. assert (PGk : 0 < Gk) by (apply ccG0_pos; lra).
  apply vels_vs in V3; [|lra|exact PR']. subst vs1 vs3. do 6 eexists. split; [reflexivity|]. fold rho rho'.
  apply Rmult_lt_compat_r; [lra|]. rewrite (Rabs_pos_eq Gk) in SH by lra.
  apply sqrt_lt_1_alt. split; [left; apply Rdiv_lt_0_compat; lra|]. apply Rlt_trans with ((Gk + 1) / rho'); [|exact SH].
  apply Rmult_lt_compat_r; [apply Rinv_0_lt_compat; exact PR'|lra].
Qed.
(** Normalisation of a density estimate: every value is divided by the maximum. Non-negative values that are not all zero
    land in [0, 1], the largest becomes 1, zero stays zero, and order and ratios are kept. *)
Theorem C64_normalize ds M : In M ds -> (forall d, In d ds -> 0 <= d <= M) -> 0 < M ->
  exists out, QI_normalize (map Fin ds) = Ret (map Fin out) /\ Forall2 (fun d o => o * M = d) ds out /\
    Forall (fun o => 0 <= o <= 1) out /\ In 1 out.
Proof.
  intros I B P. exists (map (fun d => d / M) ds). rewrite (normalize_fin ds M I) by (try (intros y Hy; apply B in Hy); lra). split; [reflexivity|]. split; [|split].
  - clear - P. induction ds as [|d ds IH]; constructor; [field; lra|exact IH].
  - apply Forall_map, Forall_forall. intros d Hd. destruct (B d Hd). split; [apply le_div_iff|apply div_le_iff]; lra.
  - apply in_map_iff. exists M. split; [field; lra|exact I].
Qed.
(** Refuted: it is not a map to [0, 1] in general. An all-zero estimate becomes all NaN, one whose largest value is
    negative is mapped above 1, and an empty array raises ValueError. *)
Theorem C64_normalize_refuted :
  (forall n, (0 < n)%nat -> QI_normalize (repeat (Fin 0) n) = Ret (repeat NaN n)) /\
  (forall ds M, In M ds -> (forall d, In d ds -> d <= M) -> M < 0 ->
     exists out, QI_normalize (map Fin ds) = Ret (map Fin out) /\ Forall2 (fun d o => o * M = d) ds out /\ Forall (fun o => 1 <= o) out) /\
  QI_normalize [] = Raise ValueError.
Proof.
  split; [|split; [|reflexivity]].
  - intros n Hn. unfold QI_normalize. replace (repeat (Fin 0) n) with (map Fin (repeat 0 n)) by (clear; induction n; cbn; congruence).
    rewrite (np_max_is (repeat 0 n) 0).
    + cbn [call]. f_equal. rewrite map_map. clear Hn. induction n as [|n IH]; [reflexivity|]. cbn [repeat map]. rewrite IH. f_equal.
      rewrite fsub_fin. replace (0 - 0) with 0 by ring. rewrite fdiv_zero_zero_np. reflexivity.
    + destruct n; [lia|left; reflexivity].
    + intros y Hy. apply repeat_spec in Hy. lra.
  - intros ds M I B P. exists (map (fun d => d / M) ds). rewrite (normalize_fin ds M I B) by lra. split; [reflexivity|]. split.
    + clear - P. induction ds as [|d ds IH]; constructor; [field; lra|exact IH].
    + apply Forall_map, Forall_forall. intros d Hd. assert (X := B d Hd). replace (d / M) with ((- d) / (- M)) by (field; lra). apply le_div_iff; lra.
Qed.

(** ** C68: rock physics template. *)
(** One point of the template: the saturated rock with the uniform (Wood) mixture of brine and hydrocarbon. Impedance and
    velocity ratio are those of [Fluid.vels]; at full saturation the fluid is the brine, at zero the hydrocarbon. *)
Theorem C68_template_point Kd Gd K0 D0 Kb Db Khc Dhc phi s :
  0 <= Kd < K0 -> 0 < Gd -> 0 < Kb < K0 -> 0 < Khc < K0 -> 0 < phi <= 1 -> 0 <= s <= 1 -> 0 < D0 -> 0 < Db -> 0 < Dhc ->
  exists vp vs rho IP PS,
    Fluid_vels NumPy (Fin Kd) (Fin Gd) (Fin K0) (Fin D0) (Fin (wood2 s Kb Khc)) (Fin (s * Db + (1 - s) * Dhc)) (Fin phi) = Ret (Fin vp, Fin vs, Fin rho) /\
    QI_rpt_point (Fin Kd) (Fin Gd) (Fin K0) (Fin D0) (Fin Kb) (Fin Db) (Fin Khc) (Fin Dhc) (Fin phi) (Fin s) = Ret (Fin IP, Fin PS) /\
    IP = vp * rho /\ PS = vp / vs /\ 0 < vs < vp /\ 4 / 3 < PS^2 /\
    rho = (1 - phi) * D0 + phi * (s * Db + (1 - s) * Dhc) /\
    (s = 1 -> wood2 s Kb Khc = Kb) /\ (s = 0 -> wood2 s Kb Khc = Khc) /\ Rmin Kb Khc <= wood2 s Kb Khc <= Rmax Kb Khc.
Proof.
  intros H1 H2 H3 H4 H5 H6 P1 P2 P3.
  assert (PF : 0 < s * Db + (1 - s) * Dhc). { destruct (Rle_lt_or_eq_dec 0 s) as [L|L]; [lra| |subst; lra]. assert (0 < s * Db) by (apply Rmult_lt_0_compat; lra). assert (0 <= (1 - s) * Dhc) by (apply Rmult_le_pos; lra). lra. }
  assert (RH : 0 < D0 * (1 - phi) + (s * Db + (1 - s) * Dhc) * phi).
  { assert (0 < (s * Db + (1 - s) * Dhc) * phi) by (apply Rmult_lt_0_compat; lra). assert (0 <= D0 * (1 - phi)) by (apply Rmult_le_pos; lra). lra. }
  destruct (rpt_eval Kd Gd K0 D0 Kb Db Khc Dhc phi s H1 H2 ltac:(lra) ltac:(lra) H5 H6 RH) as (E & EV & W & PM).
  set (rho := D0 * (1 - phi) + (s * Db + (1 - s) * Dhc) * phi) in *. set (M := gK Kd K0 (wood2 s Kb Khc) phi + 4/3 * Gd) in *.
  assert (LM : 4/3 * Gd < M). { destruct (gK_range Kd K0 (wood2 s Kb Khc) phi ltac:(lra) W ltac:(lra) H5). unfold M. lra. }
  assert (Q : 0 < Gd / rho) by (apply Rdiv_lt_0_compat; lra).
  assert (Q' : Gd / rho < M / rho) by (apply Rmult_lt_compat_r; [apply Rinv_0_lt_compat|]; lra).
  assert (S := sqrt_lt_R0 _ Q). assert (S' := sqrt_lt_1_alt _ _ (conj (Rlt_le _ _ Q) Q')).
  exists (sqrt (M / rho) * 1000), (sqrt (Gd / rho) * 1000), rho, (sqrt (M / rho) * 1000 * rho), (sqrt (M / rho) * 1000 / (sqrt (Gd / rho) * 1000)).
  split; [exact EV|]. split; [exact E|]. do 2 (split; [reflexivity|]). split; [lra|]. split; [|split; [unfold rho; ring|]].
  - replace ((sqrt (M / rho) * 1000 / (sqrt (Gd / rho) * 1000))^2) with ((sqrt (M / rho))^2 / (sqrt (Gd / rho))^2) by (field; lra).
    rewrite !pow2_sqrt by lra. replace (M / rho / (Gd / rho)) with (M / Gd) by (field; lra). apply lt_div_iff; lra.
  - split; [|split].
    + intros ->. unfold wood2. field. lra.
    + intros ->. unfold wood2. field. lra.
    + destruct (Rle_dec Khc Kb).
      * rewrite Rmin_right, Rmax_left by lra. apply wood2_range; lra.
      * rewrite Rmin_left, Rmax_right by lra. replace (wood2 s Kb Khc) with (wood2 (1 - s) Khc Kb). apply wood2_range; lra.
        unfold wood2. replace (1 - (1 - s)) with s by ring. f_equal. ring.
Qed.
(** Along a porosity line of the template, more brine moves the point to higher Vp/Vs, and to higher impedance, if the
    hydrocarbon is softer (and no denser) than the brine. *)
Theorem C68_saturation_trend Kd Gd K0 D0 Kb Db Khc Dhc phi s s' IP PS IP' PS' :
  0 <= Kd < K0 -> 0 < Gd -> 0 < Khc < Kb -> Kb < K0 -> 0 < phi <= 1 -> 0 <= s -> s < s' -> s' <= 1 -> 0 < D0 -> 0 < Db -> 0 < Dhc ->
  QI_rpt_point (Fin Kd) (Fin Gd) (Fin K0) (Fin D0) (Fin Kb) (Fin Db) (Fin Khc) (Fin Dhc) (Fin phi) (Fin s) = Ret (Fin IP, Fin PS) ->
  QI_rpt_point (Fin Kd) (Fin Gd) (Fin K0) (Fin D0) (Fin Kb) (Fin Db) (Fin Khc) (Fin Dhc) (Fin phi) (Fin s') = Ret (Fin IP', Fin PS') ->
  PS < PS' /\ (Dhc <= Db -> IP < IP').
Proof.
  intros H1 H2 H3 H4 H5 S0 S1 S2 P1 P2 P3.
  assert (PF : forall s, 0 <= s <= 1 -> 0 < s * Db + (1 - s) * Dhc). { intros t Ht. destruct (Rle_lt_or_eq_dec 0 t) as [L|L]; [lra| |subst; lra]. assert (0 < t * Db) by (apply Rmult_lt_0_compat; lra). assert (0 <= (1 - t) * Dhc) by (apply Rmult_le_pos; lra). lra. }
  assert (RH : forall s, 0 <= s <= 1 -> 0 < D0 * (1 - phi) + (s * Db + (1 - s) * Dhc) * phi).
  { intros t Ht. assert (0 < (t * Db + (1 - t) * Dhc) * phi) by (apply Rmult_lt_0_compat; [apply PF; exact Ht|lra]). assert (0 <= D0 * (1 - phi)) by (apply Rmult_le_pos; lra). lra. }
  destruct (rpt_eval Kd Gd K0 D0 Kb Db Khc Dhc phi s H1 H2 ltac:(lra) ltac:(lra) H5 ltac:(lra) (RH s ltac:(lra))) as (E & _ & W & PM).
  destruct (rpt_eval Kd Gd K0 D0 Kb Db Khc Dhc phi s' H1 H2 ltac:(lra) ltac:(lra) H5 ltac:(lra) (RH s' ltac:(lra))) as (E' & _ & W' & PM').
  assert (HR := RH s ltac:(lra)). assert (HR' := RH s' ltac:(lra)).
  assert (LW := wood2_strict s s' Kb Khc S0 S1 S2 ltac:(lra) ltac:(lra)).
  assert (LG := gK_strict_Kf Kd K0 _ _ phi ltac:(lra) (proj1 W) LW (proj2 W') H1 H5).
  rewrite E, E'. intros [= <- <-] [= <- <-].
  set (M := gK Kd K0 (wood2 s Kb Khc) phi + 4/3 * Gd) in *. set (M' := gK Kd K0 (wood2 s' Kb Khc) phi + 4/3 * Gd) in *.
  assert (LM : M < M') by (unfold M, M'; lra).
  assert (QD : Dhc <= Db -> D0 * (1 - phi) + (s * Db + (1 - s) * Dhc) * phi <= D0 * (1 - phi) + (s' * Db + (1 - s') * Dhc) * phi).
  { intros HD. apply Rplus_le_compat_l, Rmult_le_compat_r; [lra|]. assert (0 <= (s' - s) * (Db - Dhc)) by (apply Rmult_le_pos; lra). lra. }
  set (r := D0 * (1 - phi) + (s * Db + (1 - s) * Dhc) * phi) in *. set (r' := D0 * (1 - phi) + (s' * Db + (1 - s') * Dhc) * phi) in *.
  assert (RT : forall M r, 0 < M -> 0 < r -> sqrt (M / r) * 1000 / (sqrt (Gd / r) * 1000) = sqrt (M / Gd)).
  { intros m q Hm Hq. assert (0 < Gd / q) by (apply Rdiv_lt_0_compat; lra). assert (0 < m / q) by (apply Rdiv_lt_0_compat; lra). assert (X := sqrt_lt_R0 _ H).
    replace (m / Gd) with (m / q / (Gd / q)) by (field; lra). rewrite (sqrt_div_alt (m / q) (Gd / q)) by lra. field. lra. }
  assert (RI : forall M r, 0 < M -> 0 < r -> sqrt (M / r) * 1000 * r = 1000 * sqrt (M * r)).
  { intros m q Hm Hq. assert (0 < m / q) by (apply Rdiv_lt_0_compat; lra). replace (m * q) with (m / q * (q * q)) by (field; lra). rewrite sqrt_mult_alt, sqrt_square by lra. ring. }
  rewrite !RT, !RI by assumption. split.
  - apply sqrt_lt_1_alt. split; [left; apply Rdiv_lt_0_compat; lra|]. apply Rmult_lt_compat_r; [apply Rinv_0_lt_compat|]; lra.
  - intros HD. apply Rmult_lt_compat_l; [lra|]. apply sqrt_lt_1_alt. split; [left; apply Rmult_lt_0_compat; lra|].
    apply Rlt_le_trans with (M' * r); [apply Rmult_lt_compat_r; assumption|apply Rmult_le_compat_l; [lra|auto]].
Qed.
(** Refuted: the P velocity itself need not increase with brine saturation: adding brine to a gas sand whose gas stiffness
    is negligible lowers it at first, because the Wood mixture stays soft while the density grows. *)
Theorem C68_vp_monotone_refuted Kd Gd K0 D0 Kb Db Dhc phi :
  0 < Kd < K0 -> 0 < Gd -> 0 < Kb < K0 -> 0 < phi <= 1 -> 0 < D0 -> 0 < Dhc < Db ->
  exists Khc vp vs rho vp' vs' rho', 0 < Khc < Kb /\
    Fluid_vels NumPy (Fin Kd) (Fin Gd) (Fin K0) (Fin D0) (Fin (wood2 0 Kb Khc)) (Fin (0 * Db + (1 - 0) * Dhc)) (Fin phi) = Ret (Fin vp, Fin vs, Fin rho) /\
    Fluid_vels NumPy (Fin Kd) (Fin Gd) (Fin K0) (Fin D0) (Fin (wood2 (1/2) Kb Khc)) (Fin (1/2 * Db + (1 - 1/2) * Dhc)) (Fin phi) = Ret (Fin vp', Fin vs', Fin rho') /\
    vp' < vp.
Proof.
  intros H1 H2 H3 H4 H5 H6.
  set (r := D0 * (1 - phi) + (0 * Db + (1 - 0) * Dhc) * phi). set (r' := D0 * (1 - phi) + (1/2 * Db + (1 - 1/2) * Dhc) * phi).
  assert (A : 0 <= D0 * (1 - phi)) by (apply Rmult_le_pos; lra). assert (B : 0 < Dhc * phi) by (apply Rmult_lt_0_compat; lra).
  assert (C : Dhc * phi < Db * phi) by (apply Rmult_lt_compat_r; lra).
  assert (PR : 0 < r) by (unfold r; lra). assert (PR' : r < r') by (unfold r, r'; lra).
  set (e := (Kd + 4/3 * Gd) * (r' - r) / r). assert (PE : 0 < e) by (unfold e; apply Rdiv_lt_0_compat; [apply Rmult_lt_0_compat|]; lra).
  destruct (Gassmann_dry_limit NumPy K0 Kd Gd phi ltac:(lra) H4 e PE) as (d & Pd & HD).
  set (k := Rmin (d / 4) (Kb / 2)). assert (0 < k) by (apply Rmin_glb_lt; lra). assert (k <= d / 4) by apply Rmin_l. assert (k <= Kb / 2) by apply Rmin_r.
  assert (W0 : wood2 0 Kb k = k) by (unfold wood2; field; lra).
  assert (W1 : 0 < wood2 (1/2) Kb k < d).
  { assert (X := wood2_pos (1/2) Kb k ltac:(lra) ltac:(lra) ltac:(lra)). unfold wood2. split; [apply Rdiv_lt_0_compat; lra|]. apply div_lt_iff; [exact X|].
    apply Rlt_le_trans with (4 * k * ((1 - 1/2) / k)); [replace (4 * k * ((1 - 1/2) / k)) with 2 by (field; lra); lra|].
    assert (0 <= (1 - 1/2) / k) by (left; apply Rdiv_lt_0_compat; lra). assert (0 <= 1/2 / Kb) by (left; apply Rdiv_lt_0_compat; lra).
    apply Rmult_le_compat; lra. }
  destruct (rpt_eval Kd Gd K0 D0 Kb Db k Dhc phi 0 ltac:(lra) H2 ltac:(lra) ltac:(lra) H4 ltac:(lra) PR) as (_ & E & _ & PM).
  destruct (rpt_eval Kd Gd K0 D0 Kb Db k Dhc phi (1/2) ltac:(lra) H2 ltac:(lra) ltac:(lra) H4 ltac:(lra) (Rlt_trans _ _ _ PR PR')) as (_ & E' & WK & PM').
  fold r in E. fold r' in E'.
  exists k. do 6 eexists. split; [lra|]. split; [exact E|]. split; [exact E'|]. clear E E'.
  apply Rmult_lt_compat_r; [lra|]. apply sqrt_lt_1_alt. split; [left; apply Rdiv_lt_0_compat; lra|].
  destruct (gK_range Kd K0 (wood2 0 Kb k) phi ltac:(lra) ltac:(rewrite W0; lra) ltac:(lra) H4) as [L0 _].
  destruct (HD _ W1) as (Ks & EG & L1). rewrite Gassmann_eval in EG; [|lra|lra|]. 2:{ assert (X1 := gB_pos Kd K0 (wood2 (1/2) Kb k) phi ltac:(lra) WK H4). assert (X2 := gb_pos Kd K0 ltac:(lra) ltac:(lra)). lra. }
  injection EG as EG. rewrite EG. 
  apply Rlt_le_trans with ((Kd + 4/3 * Gd) / r); [|apply Rmult_le_compat_r; [left; apply Rinv_0_lt_compat|]; lra].
  apply div_lt_iff; [lra|]. apply Rlt_le_trans with (Kd + e + 4/3 * Gd); [lra|]. unfold e. right. field. lra.
Qed.

Print Assumptions C62_matrix_modulus.
Print Assumptions C62_matrix_monotone.
Print Assumptions C62_den_matrix.
Print Assumptions C62_no_solid_raises.
Print Assumptions C62_uncemented.
Print Assumptions C62_same_as_mineral_density_refuted.
Print Assumptions C62_much_shale_refuted.
Print Assumptions C63_estimate_cem.
Print Assumptions C63_read_between.
Print Assumptions C63_read_range.
Print Assumptions C63_on_a_line_refuted.
Print Assumptions C63_end_lines.
Print Assumptions C63_missing_sample_raises.
Print Assumptions C63_seed_list_refuted.
Print Assumptions C63_ignored_arguments.
Print Assumptions C63_cal_v_const.
Print Assumptions C63_zero_porosity_nan.
Print Assumptions C63_cst_vels.
Print Assumptions C63_cst_vels_beyond.
Print Assumptions C64_screening.
Print Assumptions C64_line_below_bound.
Print Assumptions C64_bounds_ordered.
Print Assumptions C64_bounds_ordered_refuted.
Print Assumptions C64_normalize.
Print Assumptions C64_normalize_refuted.
Print Assumptions C68_template_point.
Print Assumptions C68_saturation_trend.
Print Assumptions C68_vp_monotone_refuted.

(** ** Non-vacuity *)
(** A pack of grains K = 2, G = 3 (Poisson ratio 0) with cement K = 2 pi, G = 3 pi: the stiffness contrasts are 2 and 1,
    so that the frames of the contact-cement model can be bounded by hand. Cement volumes 0 and 0.1. *)
Section Example_pack.
Let Cn := 20 - 34 * 0.4 + 14 * 0.4^2.
Let Kc := 2 * PI.
Let Gc := 3 * PI.
Lemma ex_PI : 3 < PI <= 4. Proof. assert (A := PI_4). assert (B := PI2_3_2). lra. Qed.
Lemma ex_radius : let a := cement_radius 1 (0.4 - 0.3) 0.4 Cn in 0.56 < a < 0.57.
Proof.
  cbv zeta. unfold cement_radius. simpl Z.eqb. cbv iota. replace ((0.4 - 0.3) / (3 * Cn * (1 - 0.4))) with (0.1 / 15.552) by (unfold Cn; lra).
  set (q := sqrt (0.1 / 15.552)).
  assert (A : 0.080 < q) by (apply Rsqr_incrst_0; [unfold q; rewrite Rsqr_sqrt by lra; unfold Rsqr; lra|lra|apply sqrt_pos]).
  assert (B : q < 0.0804) by (apply Rsqr_incrst_0; [unfold q; rewrite Rsqr_sqrt by lra; unfold Rsqr; lra|apply sqrt_pos|lra]).
  assert (A' : 0.28 < sqrt q) by (apply Rsqr_incrst_0; [rewrite Rsqr_sqrt by lra; unfold Rsqr; lra|lra|apply sqrt_pos]).
  assert (B' : sqrt q < 0.285) by (apply Rsqr_incrst_0; [rewrite Rsqr_sqrt by lra; unfold Rsqr; lra|apply sqrt_pos|lra]). lra.
Qed.
Lemma ex_contrasts : lambda_n 2 3 Kc Gc = 2 /\ lambda_t 3 Gc = 1 /\ poisson 2 3 = 0.
Proof.
  assert (P := ex_PI). unfold lambda_n, lambda_t, poisson, Kc, Gc. split; [field; lra|]. split; field; lra.
Qed.
Lemma ex_powers : 1/2 <= Rpower 2 (- (89008/100000)) <= 0.7072 /\ 0 < Rpower 2 (- (13646/10000)) <= 1/2 /\ 0 < Rpower 2 (- (19864/10000)) <= 1.
Proof.
  assert (P1 : Rpower 2 (-(1)) = 1/2) by (rewrite Rpower_Ropp, Rpower_1 by lra; lra).
  assert (P2 : Rpower 2 (-(1/2)) <= 0.7072).
  { rewrite Rpower_Ropp. replace (1/2) with (/2) by lra. rewrite Rpower_sqrt by lra. assert (Q : 1.4141 <= sqrt 2) by (apply Rsqr_incr_0; [rewrite Rsqr_sqrt by lra; unfold Rsqr; lra|lra|apply sqrt_pos]).
    apply Rmult_le_reg_l with (sqrt 2); [lra|]. rewrite Rinv_r by lra. lra. }
  assert (P0 : Rpower 2 0 = 1) by (apply Rpower_O; lra).
  repeat split; try (apply exp_pos).
  - rewrite <- P1. apply Rle_Rpower; lra.
  - eapply Rle_trans; [|exact P2]. apply Rle_Rpower; lra.
  - rewrite <- P1. apply Rle_Rpower; lra.
  - rewrite <- P0. apply Rle_Rpower; lra.
Qed.
Lemma ex_frames : let a := cement_radius 1 (0.4 - 0.3) 0.4 Cn in
  let K1 := ccK 2 3 Kc Gc 0.4 Cn 0 in let G1 := ccG 2 3 Kc Gc 0.4 Cn 0 in let K2 := ccK 2 3 Kc Gc 0.4 Cn a in let G2 := ccG 2 3 Kc Gc 0.4 Cn a in
  0 < K1 < 0.1 /\ 0 < G1 < 0.1 /\ 0.6 < K2 < 2 /\ 0.9 < G2 < 3.
Proof.
  cbv zeta. set (a := cement_radius 1 (0.4 - 0.3) 0.4 Cn). assert (A : 0.56 < a < 0.57) by apply ex_radius.
  destruct ex_contrasts as (E1 & E2 & E3). destruct ex_powers as (Q1 & Q2 & Q3). assert (P := ex_PI).
  assert (A2 : 0.3136 < a^2 < 0.3249) by nra.
  unfold ccK, ccG, ccK. rewrite E1, E2, E3. unfold dnS, dnT, dnN1, dnN2, dnN3, dnT1, dnT2, dnT3. 
  assert (O : forall x, Rpower 1 x = 1) by (intros; unfold Rpower; rewrite ln_1, Rmult_0_r; apply exp_0). rewrite !O.
  set (x := Rpower 2 (- (89008/100000))) in *. set (y := Rpower 2 (- (13646/10000))) in *. set (z := Rpower 2 (- (19864/10000))) in *.
  replace (1/6 * Cn * (1 - 0.4) * (Kc + 4/3 * Gc)) with (5.184 * PI) by (unfold Cn, Kc, Gc; lra).
  replace (3/20 * Cn * (1 - 0.4) * Gc) with (2.3328 * PI) by (unfold Cn, Gc; lra).
  assert (X : 0.28 < x * a < 0.404) by nra. assert (Y : 0 < y * a^2 < 0.1625) by nra.
  set (s := - (24153/1000000) * y * a^2 + 20405/100000 * x * a + 24649/100000000 * z).
  assert (S : 0.053 < s < 0.0827) by (unfold s; lra).
  set (s0 := - (24153/1000000) * y * 0^2 + 20405/100000 * x * 0 + 24649/100000000 * z).
  assert (S0 : 0 < s0 < 0.00025) by (unfold s0; lra).
  match goal with |- context [2.3328 * PI * ?u] => set (t0 := u) end.
  assert (T0 : t0 = 0.00031) by (unfold t0; lra).
  match goal with |- context [3/5 * (5.184 * PI * s) + 2.3328 * PI * ?u] => set (t := u) end.
  assert (T : t = - 0.023 * a^2 + 0.202 * a + 0.00031) by (unfold t; lra).
  assert (T' : 0.105 < t < 0.1085) by lra. clearbody s s0 t t0. 
  assert (U : 0 < PI * s0 < 0.001) by nra. assert (V : 0.159 < PI * s < 0.331) by nra. assert (V' : 0.315 < PI * t < 0.434) by nra. subst t0. lra.
Qed.
(** The two lines at porosity 0.3: brine K = 1, density 1, shaly sand of density 2.65. *)
Lemma ex_lines : exists v1 v2 s1 s2, v1 < v2 /\
  QI_cal_v_const (Fin 2.65) (Fin 2) (Fin 3) (Fin 2.65) (Fin 2) (Fin 3) (Fin 2.65) (Fin Kc) (Fin Gc) (Fin 1) (Fin 1) (Fin (0.4 - 0)) (Fin 0.4) (Fin 0.2) (Fin 0.3) 1 = Ret (Fin v1, Fin s1) /\
  QI_cal_v_const (Fin 2.65) (Fin 2) (Fin 3) (Fin 2.65) (Fin 2) (Fin 3) (Fin 2.65) (Fin Kc) (Fin Gc) (Fin 1) (Fin 1) (Fin (0.4 - 0.1)) (Fin 0.4) (Fin 0.2) (Fin 0.3) 1 = Ret (Fin v2, Fin s2).
Proof.
  assert (P := ex_PI). destruct ex_frames as (F1 & F2 & F3 & F4). cbv zeta in *. set (a := cement_radius 1 (0.4 - 0.3) 0.4 Cn) in *.
  set (K1 := ccK 2 3 Kc Gc 0.4 Cn 0) in *. set (G1 := ccG 2 3 Kc Gc 0.4 Cn 0) in *. set (K2 := ccK 2 3 Kc Gc 0.4 Cn a) in *. set (G2 := ccG 2 3 Kc Gc 0.4 Cn a) in *.
  assert (H2 : hill [0.2; 1 - 0.2] [2; 2] = 2) by (unfold hill; cbn [wsum map]; lra).
  assert (H3 : hill [0.2; 1 - 0.2] [3; 3] = 3) by (unfold hill; cbn [wsum map]; lra).
  assert (C1 : GM_contactcement NumPy (Fin 2) (Fin 3) (Fin Kc) (Fin Gc) (Fin (0.4 - 0)) (Fin 0.4) (Fin Cn) 1 = Ret (Fin K1, Fin G1)).
  { rewrite contactcement_fin by (unfold Kc, Gc, Cn; lra). cbv zeta. replace (0.4 - (0.4 - 0)) with 0 by lra. rewrite radius_0. reflexivity. }
  assert (C2 : GM_contactcement NumPy (Fin 2) (Fin 3) (Fin Kc) (Fin Gc) (Fin (0.4 - 0.1)) (Fin 0.4) (Fin Cn) 1 = Ret (Fin K2, Fin G2)).
  { rewrite contactcement_fin by (unfold Kc, Gc, Cn; lra). cbv zeta. replace (0.4 - (0.4 - 0.1)) with (0.4 - 0.3) by lra. reflexivity. }
  destruct (line_frames 2 3 Kc Gc (0.4 - 0) 0.4 Cn K1 G1 1 ltac:(lra) ltac:(lra) C1 0.3 ltac:(lra)) as (Ka & Ga & Kx & Gx & E1 & _ & B1 & B2 & B3 & B4 & W1 & W2).
  destruct (line_frames 2 3 Kc Gc (0.4 - 0.1) 0.4 Cn K2 G2 1 ltac:(lra) ltac:(lra) C2 0.3 ltac:(lra)) as (Kb' & Gb' & Ku & Gu & E2 & _ & B1' & B2' & B3' & B4' & _).
  assert (T : 0.3 / (0.4 - 0) = 0.75) by lra. rewrite T in *.
  assert (Z1 := zK_pos G1 ltac:(lra)). assert (Z2 := zG_pos K1 G1 ltac:(lra) ltac:(lra)).
  assert (V1 := walpole_le_voigt (zK G1) 0.75 K1 2 ltac:(lra) ltac:(lra) ltac:(lra)). assert (V2 := walpole_le_voigt (zG K1 G1) 0.75 G1 3 ltac:(lra) ltac:(lra) ltac:(lra)).
  destruct (vels_order Ka Ga Kb' Gb' 2 2.65 1 1 0.3) as (v1 & s1 & v2 & s2 & V & V' & _ & _ & _ & L); try lra.
  exists v1, v2, s1, s2. split; [apply L; lra|].
  assert (EC : 20 - 34 * 0.4 + 14 * 0.4^2 = Cn) by reflexivity.
  split; unfold QI_cal_v_const; rewrite mineral_fin by lra; rewrite H2, H3; cbn [call]; unfold Emp_Cp; rewrite !fpown_fin, !fmul_fin, fsub_fin, fadd_fin, bind_fin; cbn [call]; rewrite EC.
  - rewrite E1. cbn [call]. replace (2.65 * 0.2 + 2.65 * (1 - 0.2)) with 2.65 by lra. rewrite V. reflexivity.
  - rewrite E2. cbn [call]. replace (2.65 * 0.2 + 2.65 * (1 - 0.2)) with 2.65 by lra. rewrite V'. reflexivity.
Qed.
(** End to end: a sample half way between the lines gets the cement volume 0.05. *)
Example C63_nonvacuous : exists vp,
  QI_estimate_cem [(Fin 0.3, Fin vp)] [Fin 0; Fin 0.1] false (Fin 2) (Fin 3) (Fin 2) (Fin 3) (Fin 0.4) (Fin 9) (Fin Kc) (Fin Gc) (Fin 1) (Fin 1) 1 (Fin 0.2) (Fin 2.65) (Fin 2.65) (Fin 2.65)
  = Ret [Fin 0.05].
Proof.
  destruct ex_lines as (v1 & v2 & s1 & s2 & L & E1 & E2). exists ((v1 + v2) / 2).
  set (lines := fun s (_ : R) => if Req_EM_T s 0 then v1 else v2).
  destruct (C63_estimate_cem lines [(0.3, (v1 + v2) / 2)] [0; 0.1] 2 3 2 3 0.4 (Fin 9) Kc Gc 1 1 1 0.2 2.65 2.65 2.65) as (out & E & F).
  - discriminate.
  - intros s phi vp Hs Hq. destruct Hq as [[= <- <-]|[]]. unfold lines. destruct Hs as [<-|[<-|[]]].
    + destruct Req_EM_T; [|lra]. exists (Fin s1). exact E1.
    + destruct Req_EM_T; [lra|]. exists (Fin s2). exact E2.
  - intros phi vp _. unfold lines. cbn [map]. destruct Req_EM_T; [|lra]. destruct Req_EM_T; [lra|]. repeat constructor; cbn [In]; intuition lra.
  - inversion F as [|q c ? ? R R']; subst. inversion R'; subst. cbn [fst snd map] in *. unfold lines in R. destruct Req_EM_T in R; [|lra]. destruct Req_EM_T in R; [lra|].
    destruct (C63_read_between _ _ _ 0 v1 0.1 v2 R) as (X & _).
    + cbn. repeat constructor; cbn [In]; intuition lra.
    + left; reflexivity. + right; left; reflexivity. + lra.
    + intros p [<-|[<-|[]]]; cbn [snd]; lra.
    + intros p0 L0 [= <- <-]. cbn. lra.
    + subst c. rewrite E. do 2 f_equal. unfold lerp. replace (0 + ((v1 + v2) / 2 - v1) / (v2 - v1) * (0.1 - 0)) with 0.05 by (change 0.1 with (1/10); change 0.05 with (5/100); field; lra). reflexivity.
Qed.
Example C63_line_nonvacuous : exists Kf Gf,
  GM_contactcement NumPy (Fin (hill [0.2; 1 - 0.2] [2; 2])) (Fin (hill [0.2; 1 - 0.2] [3; 3])) (Fin Kc) (Fin Gc) (Fin 0.3) (Fin 0.4) (Fin (20 - 34 * 0.4 + 14 * 0.4^2)) 1 = Ret (Fin Kf, Fin Gf) /\
  0 < Kf < hill [0.2; 1 - 0.2] [2; 2] /\ 0 < Gf < hill [0.2; 1 - 0.2] [3; 3].
Proof.
  assert (P := ex_PI). destruct ex_frames as (F1 & F2 & F3 & F4). cbv zeta in *.
  assert (H2 : hill [0.2; 1 - 0.2] [2; 2] = 2) by (unfold hill; cbn [wsum map]; lra).
  assert (H3 : hill [0.2; 1 - 0.2] [3; 3] = 3) by (unfold hill; cbn [wsum map]; lra). rewrite H2, H3. fold Cn.
  rewrite contactcement_fin by (unfold Kc, Gc, Cn; lra). cbv zeta. do 2 eexists. split; [reflexivity|]. lra.
Qed.
(** The ordering hypotheses of C64: at low stress the friable sand is softer than the cemented one. *)
Example C64_nonvacuous : exists sigma Ks Gs Kf Gf, 0 < sigma /\
  GM_softsand NumPy (Fin 2) (Fin 3) (Fin 0.3) (Fin 0.4) (Fin Cn) (Fin sigma) (Fin 0.5) = Ret (Fin Ks, Fin Gs) /\
  GM_contactcement NumPy (Fin 2) (Fin 3) (Fin Kc) (Fin Gc) (Fin 0.3) (Fin 0.4) (Fin Cn) 1 = Ret (Fin Kf, Fin Gf) /\
  0 < Kf < 2 /\ 0 < Gf < 3 /\ Ks <= Kf /\ Gs <= Gf.
Proof.
  assert (P := ex_PI). destruct ex_frames as (F1 & F2 & F3 & F4). cbv zeta in *.
  destruct (hm_small NumPy 2 3 0.4 Cn 0.5 0.1 0.1) as (sg & Ku & Gu & Ps & E & L1 & L2); try (unfold Cn; lra).
  rewrite hertzmindlin_fin in E by (unfold Cn; lra). cbv zeta in E. injection E as EK EG.
  exists sg. do 4 eexists. split; [exact Ps|]. rewrite softsand_fin by (unfold Cn; lra). cbv zeta. rewrite EG, EK. split; [reflexivity|].
  rewrite contactcement_fin by (unfold Kc, Gc, Cn; lra). cbv zeta. split; [reflexivity|]. split; [lra|]. split; [lra|].
  assert (Z1 := zK_pos Gu ltac:(lra)). assert (Z2 := zG_pos Ku Gu ltac:(lra) ltac:(lra)). replace (0.3 / 0.4) with 0.75 by lra.
  assert (V1 := walpole_le_voigt (zK Gu) 0.75 Ku 2 ltac:(lra) ltac:(lra) ltac:(lra)). assert (V2 := walpole_le_voigt (zG Ku Gu) 0.75 Gu 3 ltac:(lra) ltac:(lra) ltac:(lra)). lra.
Qed.
End Example_pack.
Example C62_nonvacuous : 0 <= 0.2 /\ 0.2 <= 1 - 0.4 /\ 0.3 < 0.4 /\ 0.3 <> 1 /\ 0 < 21 /\ 0 < 37 /\ 0 < 45. Proof. lra. Qed.
Example C64_screening_nonvacuous : 0 < 37 /\ 0 < 45 /\ 0.3 <= 0.4 /\ 0 < 0.4 < 1 /\ 0 < 9 /\ 0 <= 0.1 <= 1 - 0.4 /\ 0 <= 0.5 <= 1. Proof. lra. Qed.
Example C64_normalize_nonvacuous : In 4 [1; 4; 0] /\ (forall d, In d [1; 4; 0] -> 0 <= d <= 4) /\ 0 < 4.
Proof. split; [right; left; reflexivity|]. split; [|lra]. intros d [<-|[<-|[<-|[]]]]; lra. Qed.
Example C68_nonvacuous : 0 < 10 < 37 /\ 0 < 12 /\ 0 < 0.1 < 2.8 /\ 2.8 < 37 /\ 0 < 0.25 <= 1 /\ 0 <= 0.2 /\ 0.2 < 0.8 /\ 0.8 <= 1 /\ 0 < 2.65 /\ 0 < 0.2 < 1.05. Proof. lra. Qed.
