(** * C86: double-precision results. *)
From Coq Require Import ZArith Lia Lra String.
From Flocq Require Import Raux Generic_fmt FLT BinarySingleNaN.
From Verif Require Import Fl M_Array M_Round Spec16 Spec18 M_Double Spec22 L_Round L_Double M_ArrayFns M_Utils M_EM M_Fluid M_GM M_Perm.
From Verif Require Import L_Utils P_Round.
Open Scope R_scope.

(** A machine that reads literals correctly and whose library functions are correctly rounded. *)
Definition correct_literal (r : R) : double :=
  binary_normalize 53 1024 prec_pos prec_emax mode_NE
    (Ztrunc (scaled_mantissa Zaux.radix2 (FLT_exp (-1074) 53) (nearest r))) (cexp Zaux.radix2 (FLT_exp (-1074) 53) (nearest r)) false.
Definition correct_machine : machine :=
  {| literal := correct_literal; libm1 := fun o x => correct_literal (rsem1 o (dval x));
     libm2 := fun o x y => correct_literal (rsem2 o (dval x) (dval y)) |}.

Lemma size_size0 n x : size n x -> size0 n x.
Proof. intros (A & B). split; auto. Qed.
Ltac sizes := repeat (eapply Forall2_cons; [first [eapply frac_rg; [eassumption|lra] | eapply frac_rg; [eapply size_size0; eassumption|lra] | eapply size_rg; eassumption | eapply size0_rg; eassumption | eapply sized_rg; eassumption]|]); apply Forall2_nil.
Lemma size_pos n x : size n x -> 0 < dval x.
Proof. intros (_ & A & _). pose proof (Rinv_0_lt_compat (2 ^ n) ltac:(apply pow_lt; lra)). lra. Qed.
Lemma size0_pos n x : size0 n x -> 0 <= dval x.
Proof. intros (_ & [A|A]); [lra|]. pose proof (Rinv_0_lt_compat (2 ^ n) ltac:(apply pow_lt; lra)). lra. Qed.
Ltac poss := repeat match goal with
  | H : size ?n ?x |- _ => lazymatch goal with K : 0 < dval x |- _ => fail | _ => pose proof (size_pos n x H) end
  | H : size0 ?n ?x |- _ => lazymatch goal with K : 0 <= dval x |- _ => fail | _ => pose proof (size0_pos n x H) end end.
Lemma u64_small : 0 < u64 <= / 1000000.
Proof.
  unfold u64. split; [apply Rinv_0_lt_compat, pow_lt; lra|]. apply Rinv_le_contravar; [lra|].
  replace (2 ^ 53) with (IZR (2 ^ 53)) by (rewrite (pow_IZR 2 53); reflexivity). apply IZR_le. vm_compute; discriminate.
Qed.
Ltac dbl Hu HL HM acc := intros; poss; pose proof u64_small; eapply ptr_accurate; [|sizes|intros ? F; eapply acc; try exact F; eauto; try lra];
  match goal with |- ptr _ _ _ ?p => unfold p end; ranges Hu HL HM.


(** ** Runs without overflow and underflow *)
Lemma correct_literal_ok r : Rabs r <= 2 ^ 1023 -> dfinite (correct_literal r) /\ dval (correct_literal r) = nearest r.
Proof. intros H. apply nearest_double_is; auto. Qed.
(** There is a machine with these properties, with the unit of rounding of double precision for the library functions too. *)
Theorem C86_machine_exists : reads_literals correct_machine /\ library_accurate u64 correct_machine.
Proof.
  assert (L : forall r, in_range r -> dfinite (correct_literal r) /\ near u64 r (dval (correct_literal r))).
  { intros r H. pose proof (in_range_inrg r H) as I. destruct (correct_literal_ok r) as (F & V).
    - destruct I as (_ & B & _). eapply Rle_trans; [exact B|]. change 1022%Z with (Z.of_nat 1022). rewrite bp_pow. apply Rle_pow; lra || lia.
    - split; auto. rewrite V. apply nearest_near. eapply rg_normal; [|exact I]; lia. }
  split; [exact correct_literal_ok|]. split; intros; apply L; auto.
Qed.
Print Assumptions C86_machine_exists.

(** All functions of M_ArrayFns.v: a double-precision run in which every operation is inside its domain and neither overflows
    nor underflows is one of the runs that M_Round.v allows, so everything proved of those (C81) holds of it. *)
Theorem C86_quiet_runs : forall u M p ds, u64 <= u <= / 1000000 -> reads_literals M -> library_accurate u M ->
  Forall dfinite ds -> quiet M p ds ->
  Forall dfinite (drun M p ds) /\ fprog u p (map dval ds) (Some (map dval (drun M p ds))).
Proof. intros u M p ds Hu HL HM F Q. apply (prog_quiet u M Hu HL HM p ds F Q). Qed.
Print Assumptions C86_quiet_runs.

(** ** Arguments of moderate size: no overflow or underflow happens, and the results are accurate

    The functions without powers: correctly rounded operations only. *)
Section NoLibrary.
Variable M : machine.
Hypothesis HL : reads_literals M.
Let Hu := conj (Rle_refl u64) (proj2 u64_small).
Theorem C86_velocities : forall m K G rho, size 300 K -> size 300 G -> size 300 rho ->
  double_accurate u64 (out2 (utils_V m #(dval K) #(dval G) #(dval rho))%fl) [8; 5]%nat (drun M arr_utils_V [K; G; rho]).
Proof. dbl Hu HL HL C81_velocities. Qed.
Theorem C86_lame : forall m K G, size 400 K -> size 400 G -> 4 * dval G <= 3 * dval K ->
  double_accurate u64 (out1 (utils_lame m #(dval K) #(dval G))%fl) [5]%nat (drun M arr_utils_lame [K; G]).
Proof. dbl Hu HL HL (fun m u K G ys a b c => proj2 (C81_poisson_lame m u K G ys a b c)). Qed.
Theorem C86_poisson : forall m K G, size 300 K -> size 300 G -> 4 * dval G <= 5 * dval K ->
  double_accurate u64 (out1 (utils_poi m #(dval K) #(dval G))%fl) [17]%nat (drun M arr_utils_poi [K; G]).
Proof. dbl Hu HL HL (fun m u K G ys a b c => proj1 (C81_poisson_lame m u K G ys a b c)). Qed.
Theorem C86_crack_porosity : forall m crd alpha, sized 400 crd -> sized 400 alpha ->
  double_accurate u64 (out1 (utils_crack_por m #(dval crd) #(dval alpha))%fl) [6]%nat (drun M arr_utils_crack_por [crd; alpha]).
Proof. dbl Hu HL HL C81_crack_porosity. Qed.
Theorem C86_hs_lower : forall m f K1 K2 G1 G2, size0 100 f -> dval f <= 1 -> size 100 K1 -> size 100 K2 -> size 100 G1 -> size 100 G2 ->
  dval K2 < dval K1 -> dval G2 < dval G1 ->
  double_accurate u64 (out2 (EM_HS m #(dval f) #(dval K1) #(dval K2) #(dval G1) #(dval G2) "lower")%fl) [13; 20]%nat (drun M arr_EM_HS_lower [f; K1; K2; G1; G2]).
Proof. dbl Hu HL HL C81_hs_lower. Qed.
Theorem C86_critical_porosity : forall m K0 G0 phi phic, sized 300 K0 -> sized 300 G0 -> size0 300 phi -> size 300 phic -> 4 * dval phi <= 3 * dval phic ->
  double_accurate u64 (out2 (EM_cripor m #(dval K0) #(dval G0) #(dval phi) #(dval phic))%fl) [7; 7]%nat (drun M arr_EM_cripor [K0; G0; phi; phic]).
Proof. dbl Hu HL HL C81_critical_porosity. Qed.
End NoLibrary.
Print Assumptions C86_velocities.
Print Assumptions C86_lame.
Print Assumptions C86_poisson.
Print Assumptions C86_crack_porosity.
Print Assumptions C86_hs_lower.
Print Assumptions C86_critical_porosity.

(** The functions with powers: u also bounds the errors of the library's power functions. *)
Section Library.
Variables (u : R) (M : machine).
Hypothesis Hu : u64 <= u <= / 1000000.
Hypothesis HL : reads_literals M.
Hypothesis HM : library_accurate u M.
Theorem C86_gassmann : forall m Kd Gd Km Kf phi, size 100 Kd -> sized 100 Gd -> size 100 Km -> size 100 Kf -> size0 100 phi -> dval phi <= 1 ->
  dval Kf <= dval Km -> 4 * dval Kd <= 3 * dval Km ->
  double_accurate u (out2 (Fluid_Gassmann m #(dval Kd) #(dval Gd) #(dval Km) #(dval Kf) #(dval phi))%fl) [34; 1]%nat (drun M arr_Fluid_Gassmann [Kd; Gd; Km; Kf; phi]).
Proof. dbl Hu HL HM C81_gassmann. Qed.
Theorem C86_saturated_velocities : forall m Kd Gd K0 D0 Kf Df phi, size 70 Kd -> size 70 Gd -> size 70 K0 -> size 70 D0 -> size 70 Kf -> size 70 Df ->
  size0 70 phi -> dval phi <= 1 -> dval Kf <= dval K0 -> 4 * dval Kd <= 3 * dval K0 ->
  double_accurate u (out3 (Fluid_vels m #(dval Kd) #(dval Gd) #(dval K0) #(dval D0) #(dval Kf) #(dval Df) #(dval phi))%fl) [42; 7; 4]%nat (drun M arr_Fluid_vels [Kd; Gd; K0; D0; Kf; Df; phi]).
Proof. dbl Hu HL HM C81_saturated_velocities. Qed.
Theorem C86_moduli_from_velocities : forall m den vp vs, size 250 den -> size 250 vp -> size 250 vs -> 8 * dval vs ^ 2 <= 3 * dval vp ^ 2 ->
  double_accurate u (out2 (utils_M_from_V m #(dval den) #(dval vp) #(dval vs))%fl) [12; 5]%nat (drun M arr_utils_M_from_V [den; vp; vs]).
Proof. dbl Hu HL HM C81_moduli_from_velocities. Qed.
Theorem C86_geertsma_smit : forall m Vp0 Vpinf freq phi rhofl kapa eta, size 20 Vp0 -> size 20 Vpinf -> size 40 freq -> size 30 phi -> size 30 rhofl -> size 70 kapa -> size 30 eta ->
  double_accurate u (out1 (Fluid_Geertsma_Smit_LF m #(dval Vp0) #(dval Vpinf) #(dval freq) #(dval phi) #(dval rhofl) #(dval kapa) #(dval eta))%fl) [43]%nat (drun M arr_Fluid_Geertsma_Smit_LF [Vp0; Vpinf; freq; phi; rhofl; kapa; eta]).
Proof. dbl Hu HL HM C81_geertsma_smit. Qed.
Theorem C86_kozeny_carman : forall m phi d, size 120 phi -> dval phi < 1 -> sized 120 d ->
  double_accurate u (out1 (Perm_Kozeny_Carman m #(dval phi) #(dval d))%fl) [10]%nat (drun M arr_Perm_Kozeny_Carman [phi; d]).
Proof. dbl Hu HL HM (fun m u phi d ys a b => proj1 (C81_permeability m u phi d ys a b)). Qed.
Theorem C86_panda_lake : forall m d C S tau phi, sized 60 d -> size 30 C -> size 30 S -> size 30 tau -> size 50 phi -> dval phi < 1 ->
  double_accurate u (out1 (Perm_Panda_Lake m #(dval d) #(dval C) #(dval S) #(dval tau) #(dval phi))%fl) [29]%nat (drun M arr_Perm_Panda_Lake [d; C; S; tau; phi]).
Proof. dbl Hu HL HM (fun m u d C S tau phi ys a b => proj1 (proj2 (C81_permeability m u phi d ys a b)) C S tau). Qed.
Theorem C86_fredrich : forall m phi d b, size 110 phi -> dval phi < 1 -> size 110 d -> size 110 b ->
  double_accurate u (out1 (Perm_Fredrich m #(dval phi) #(dval d) #(dval b))%fl) [18]%nat (drun M arr_Perm_Fredrich [phi; d; b]).
Proof. dbl Hu HL HM (fun m u phi d b ys a e => proj2 (proj2 (C81_permeability m u phi d ys a e)) b). Qed.
Theorem C86_hertzmindlin : forall m K0 G0 phic Cn sigma f k, size 50 K0 -> size 50 G0 -> size0 50 phic -> size 20 Cn -> size 50 sigma -> size0 20 f ->
  4 * dval G0 <= 5 * dval K0 -> dval phic < 1 ->
  (exists g, GM_hertzmindlin m #(dval K0) #(dval G0) #(dval phic) #(dval Cn) #(dval sigma) #(dval f) = Ret (#k, #g)%fl) -> Rabs (ln k) <= 20 ->
  double_accurate u (out2 (GM_hertzmindlin m #(dval K0) #(dval G0) #(dval phic) #(dval Cn) #(dval sigma) #(dval f))%fl) [75; 124]%nat (drun M arr_GM_hertzmindlin [K0; G0; phic; Cn; sigma; f]).
Proof. intros m K0 G0 phic Cn sigma f k ? ? ? ? ? ? ? ? (g & ?) ?; dbl Hu HL HM C81_hertzmindlin. Qed.
End Library.
Print Assumptions C86_gassmann.
Print Assumptions C86_saturated_velocities.
Print Assumptions C86_moduli_from_velocities.
Print Assumptions C86_geertsma_smit.
Print Assumptions C86_kozeny_carman.
Print Assumptions C86_panda_lake.
Print Assumptions C86_fredrich.
Print Assumptions C86_hertzmindlin.

(** ** Why the sizes are restricted *)
(** The double z * 2^e. *)
Definition dz (z e : Z) : double := binary_normalize 53 1024 prec_pos prec_emax mode_NE z e false.
Lemma dz_ok z e : (Z.abs z <= 2 ^ 53)%Z -> (-1074 <= e <= 970)%Z -> dfinite (dz z e) /\ dval (dz z e) = IZR z * bp e.
Proof.
  intros Hz He. pose proof (binary_normalize_correct 53 1024 _ _ mode_NE z e false) as C. cbv zeta in C. foldn C.
  assert (X : Defs.F2R (Defs.Float Zaux.radix2 z e) = IZR z * bp e) by reflexivity. rewrite X in C.
  assert (F : fmt (IZR z * bp e)).
  { destruct (Z.eq_dec (Z.abs z) (2 ^ 53)) as [E|E].
    - assert (P : fmt (bp (53 + e))) by (apply fmt_bp; lia). rewrite bpow_plus in P. change (bp 53) with (IZR (2 ^ 53)) in P. destruct (Z_le_dec 0 z).
      + replace z with (2 ^ 53)%Z by lia. exact P.
      + replace z with (- 2 ^ 53)%Z by lia. rewrite opp_IZR, Ropp_mult_distr_l_reverse. apply generic_format_opp. exact P.
    - apply generic_format_FLT. exists (Defs.Float Zaux.radix2 z e); [reflexivity|cbn; lia|cbn; lia]. }
  assert (N : nearest (IZR z * bp e) = IZR z * bp e) by (apply round_generic; auto with typeclass_instances).
  rewrite N, Rlt_bool_true in C; [destruct C as (C1 & C2 & _); split; auto|].
  rewrite Rabs_mult, <- abs_IZR, (Rabs_right (bp e)) by (apply Rle_ge, bpow_ge_0).
  apply Rle_lt_trans with (bp 53 * bp e); [|rewrite <- bpow_plus; apply bpow_lt; lia].
  apply Rmult_le_compat_r; [apply bpow_ge_0|]. change (bp 53) with (IZR (2 ^ 53)). apply IZR_le; lia.
Qed.
Lemma literal_int M z : reads_literals M -> (0 < z <= 2 ^ 53)%Z -> literal M (IZR z) = dz z 0.
Proof.
  intros HL Hz. assert (Pz : 0 < IZR z) by (apply IZR_lt; lia). destruct (HL (IZR z)) as (F & V).
  - rewrite Rabs_right by lra. apply Rle_trans with (bp 53); [change (bp 53) with (IZR (2 ^ 53)); apply IZR_le; lia|].
    change 53%Z with (Z.of_nat 53). rewrite bp_pow. apply Rle_pow; lra || lia.
  - destruct (dz_ok z 0) as (F' & V'); [lia|lia|]. rewrite Rmult_1_r in V'.
    assert (N : nearest (IZR z) = IZR z) by (apply round_generic; auto with typeclass_instances; apply int_fmt; lia).
    rewrite N in V.
    assert (S : forall d : double, dfinite d -> dval d = IZR z -> is_finite_strict d = true).
    { intros [s| | |s mx ex B] D E; auto; try discriminate. cbn in E. lra. }
    apply (B2R_inj 53 1024); [apply S; auto|apply S; auto|]. fold (dval (literal M (IZR z))) (dval (dz z 0)). congruence.
Qed.

(** Bit by bit: utils.lame(37, 44) is 7.666666666666668, one unit in the last place above the double nearest to 23/3. *)
Example C86_lame_bits : forall M, reads_literals M -> drun M arr_utils_lame [dz 37 0; dz 44 0] = [dz 8631899285793452 (-50)].
Proof.
  intros M HL. unfold arr_utils_lame. cbn [drun dev dsem2 app nth map].
  rewrite (literal_int M 2 HL), (literal_int M 3 HL) by lia. f_equal. apply (B2SF_inj 53 1024). lazy. reflexivity.
Qed.

(** Overflow: V_S = sqrt(G/rho) * 1000 is about 1e168, but the quotient is not a double and the result is inf. *)
Theorem C86_overflow_refuted : forall M, reads_literals M ->
  exists K G rho, dfinite K /\ dfinite G /\ dfinite rho /\ 0 < dval K /\ 0 < dval G /\ 0 < dval rho /\
    (forall m, exists vp, utils_V m #(dval K) #(dval G) #(dval rho) = Ret (#vp, #(1000 * 2 ^ 550))%fl) /\
    nth 1 (drun M arr_utils_V [K; G; rho]) (dz 0 0) = B754_infinity false.
Proof.
  intros M HL. exists (dz 1 970), (dz 1 970), (dz 1 (-130)).
  destruct (dz_ok 1 970) as (F & V); [lia|lia|]. destruct (dz_ok 1 (-130)) as (F' & V'); [lia|lia|].
  rewrite Rmult_1_l in V, V'. pose proof (bpow_gt_0 Zaux.radix2 970). pose proof (bpow_gt_0 Zaux.radix2 (-130)).
  repeat (split; [first [assumption|rewrite ?V, ?V'; assumption]|]). split.
  - intros m. rewrite V, V'. eexists. unfold utils_V.
    repeat (first [fl1 | rewrite fdiv_fin by lra | rewrite fsqrt_fin by (left; apply Rdiv_lt_0_compat; lra)]; cbv beta zeta).
    assert (E : sqrt (bp 970 / bp (-130)) = 2 ^ 550).
    { change (bp (-130)) with (/ bp 130). unfold Rdiv. rewrite Rinv_inv, <- bpow_plus. change (970 + 130)%Z with (550 + 550)%Z.
      rewrite bpow_plus, sqrt_square by apply bpow_ge_0. rewrite <- bp_pow. reflexivity. }
    rewrite E, (Rmult_comm 1000). reflexivity.
  - unfold arr_utils_V. cbn [drun dev dsem1 dsem2 app nth map]. rewrite (literal_int M 1000 HL) by lia. apply (B2SF_inj 53 1024). lazy. reflexivity.
Qed.
Print Assumptions C86_overflow_refuted.

(** Underflow: the crack porosity 4 pi alpha crd / 3 of alpha = crd = 2^-600 is computed as 0. *)
Theorem C86_underflow_refuted : forall M, reads_literals M ->
  exists crd alpha d, dfinite crd /\ dfinite alpha /\ 0 < dval crd /\ 0 < dval alpha /\
    (forall m, exists r, utils_crack_por m #(dval crd) #(dval alpha) = Ret #r%fl /\ 0 < r) /\
    drun M arr_utils_crack_por [crd; alpha] = [d] /\ dfinite d /\ dval d = 0.
Proof.
  intros M HL. set (x := dz 1 (-600)). destruct (dz_ok 1 (-600)) as (F & V); [lia|lia|]. fold x in F, V. rewrite Rmult_1_l in V.
  assert (P : 0 < dval x) by (rewrite V; apply bpow_gt_0).
  exists x, x, (nth 0 (drun M arr_utils_crack_por [x; x]) (dz 0 0)). repeat (split; [assumption|]). split; [|split; [reflexivity|]].
  - intros m. pose proof PI_RGT_0. unfold utils_crack_por. eexists. split.
    + repeat (first [fl1 | rewrite fdiv_fin by lra]; cbv beta zeta). reflexivity.
    + apply Rdiv_lt_0_compat; [|lra]. apply Rmult_lt_0_compat; [apply Rmult_lt_0_compat|]; try assumption; lra.
  - unfold arr_utils_crack_por. cbn [drun map app nth dev dsem2].
    pose proof (conj (Rle_refl u64) (proj2 u64_small)) as Hu.
    set (G := [((-600)%Z, (-600)%Z, true); ((-600)%Z, (-600)%Z, true)]).
    assert (E : Forall2 okd G [x; x]).
    { assert (okd ((-600)%Z, (-600)%Z, true) x).
      { split; auto. unfold inrg. rewrite V, Rabs_right by (apply Rle_ge, bpow_ge_0). repeat split; try lra; intros; apply bpow_ge_0. }
      constructor; [auto|constructor; [auto|constructor]]. }
    assert (T : exists g, tr u64 M G (EOp2 OMul (EOp2 OMul (ELit 4) (ELit PI)) (EVar 1)) g /\ g = ((-597)%Z, (-596)%Z, true)).
    { let p := infer Hu HL HL u64 M G (EOp2 OMul (EOp2 OMul (ELit 4) (ELit PI)) (EVar 1)) in (eexists; split; [exact p|reflexivity]). }
    destruct T as (g & T & ->). destruct (T [x; x] E) as (y & Fy & K).
    assert (Ey : exists r, y = Some r).
    { destruct y as [r|]; eauto. exfalso. clear -Fy. cbn in Fy. destruct Fy as (a & b & (a1 & b1 & (? & -> & _) & (? & -> & _) & H) & -> & H2).
      destruct H as [(_ & ? & -> & _)|([] & _)]; [|exact Logic.I]. destruct H2 as [(_ & ? & [=] & _)|([] & _)]. exact Logic.I. }
    destruct Ey as (r & ->). destruct (K r eq_refl) as ((Fa & I) & _). cbn [dev dsem2 nth] in Fa, I.
    set (a := Bmult mode_NE (Bmult mode_NE (literal M 4) (literal M PI)) x) in *.
    assert (Z : nearest (dval a * dval x) = 0).
    { destruct I as (L & U & S). specialize (S eq_refl). rewrite V.
      destruct L as [L|L]; [rewrite L, Rmult_0_l; apply nearest_0|].
      assert (B : bp (-1197) <= Rabs (dval a * bp (-600)) <= bp (-1196)).
      { rewrite Rabs_mult, (Rabs_right (bp (-600))) by (apply Rle_ge, bpow_ge_0).
        change (-1197)%Z with (-597 + -600)%Z. change (-1196)%Z with (-596 + -600)%Z. rewrite !(bpow_plus Zaux.radix2).
        split; apply Rmult_le_compat_r; auto; apply bpow_ge_0. }
      assert (C : Rabs (nearest (dval a * bp (-600))) <= bp (-1074)).
      { apply nearest_le; [lia|]. apply Rle_trans with (bp (-1196)); [apply B|apply bpow_le; lia]. }
      destruct (Rlt_dec (Rabs (dval a * bp (-600))) (bp (-1196))) as [Lt|Ge].
      - apply (round_N_small Zaux.radix2 (FLT_exp (-1074) 53) _ _ (-1196)); [split; [apply B|exact Lt]|reflexivity].
      - apply (round_N_small Zaux.radix2 (FLT_exp (-1074) 53) _ _ (-1195)); [split; [change (-1195 - 1)%Z with (-1196)%Z; lra|]|reflexivity].
        apply Rle_lt_trans with (bp (-1196)); [apply B|apply bpow_lt; lia]. }
    pose proof (Bmult_correct 53 1024 _ _ mode_NE a x) as B. fold (dval a) (dval x) in B. foldn B. rewrite Z in B.
    rewrite Rlt_bool_true in B by (rewrite Rabs_R0; apply bpow_gt_0). destruct B as (B1 & B2 & _).
    unfold dfinite in Fa, F. rewrite Fa, F in B2. rewrite (literal_int M 3 HL) by lia.
    destruct (dz_ok 3 0) as (F3 & V3); [lia|lia|].
    pose proof (Bdiv_correct 53 1024 _ _ mode_NE (Bmult mode_NE a x) (dz 3 0)) as D. fold (dval (dz 3 0)) in D. rewrite V3 in D. specialize (D ltac:(cbn; lra)).
    foldn D. rewrite B1 in D. replace (0 / (3 * bp 0)) with 0 in D by (field; cbn; lra). rewrite nearest_0 in D.
    rewrite Rlt_bool_true in D by (rewrite Rabs_R0; apply bpow_gt_0). destruct D as (D1 & D2 & _). split; [|exact D1].
    unfold dfinite. rewrite D2. exact B2.
Qed.
Print Assumptions C86_underflow_refuted.

(** ** Examples: the hypotheses are met by ordinary values *)
Lemma dz_size n z e : (Z.abs z <= 2 ^ 53)%Z -> (-1074 <= e <= 970)%Z -> / 2 ^ n <= IZR z * bp e <= 2 ^ n -> size n (dz z e).
Proof. intros A B C. destruct (dz_ok z e A B) as (F & V). split; auto. rewrite V. exact C. Qed.
Lemma dz_size10 z e : (Z.abs z <= 2 ^ 53)%Z -> (-1074 <= e <= 970)%Z -> / 1024 <= IZR z * bp e <= 1024 -> size 10 (dz z e).
Proof. intros A B C. apply dz_size; auto. replace (2 ^ 10) with 1024 by ring. exact C. Qed.
Lemma size_mono n k x : (n <= k)%nat -> size n x -> size k x.
Proof.
  intros H (F & A & B). split; auto. assert (2 ^ n <= 2 ^ k) by (apply Rle_pow; [lra|auto]).
  pose proof (pow_lt 2 n ltac:(lra)). assert (/ 2 ^ k <= / 2 ^ n) by (apply Rinv_le_contravar; lra). lra.
Qed.
Lemma size_sized n x : size n x -> sized n x.
Proof. intros H. pose proof (size_pos n x H). destruct H as (A & B). split; auto. right. rewrite Rabs_right by lra. exact B. Qed.
Ltac sz := eapply (size_mono 10); [lia|]; apply dz_size10; [lia|lia|cbn; lra].
Ltac val z e := let F := fresh in let V := fresh in destruct (dz_ok z e) as (F & V); [lia|lia|]; cbn [bpow Zaux.radix_val Zaux.radix2 Z.pow_pos Pos.iter Z.mul Pos.mul] in V.
(** Quartz: K = 37 GPa, G = 44 GPa, density 21/8 g/cc. The velocities are those of the formula to 8 and 5 units of rounding. *)
Example C86_velocities_example :
  double_accurate u64 (out2 (utils_V NumPy #(dval (dz 37 0)) #(dval (dz 44 0)) #(dval (dz 21 (-3))))%fl) [8; 5]%nat
    (drun correct_machine arr_utils_V [dz 37 0; dz 44 0; dz 21 (-3)]) /\
  dval (dz 37 0) = 37 /\ dval (dz 44 0) = 44 /\ dval (dz 21 (-3)) = 21 / 8.
Proof.
  split; [apply C86_velocities; [apply C86_machine_exists|sz|sz|sz]|].
  val 37%Z 0%Z. val 44%Z 0%Z. val 21%Z (-3)%Z. repeat split; lra.
Qed.
(** A sandstone (dry 12 and 9 GPa) filled with brine. *)
Example C86_gassmann_example :
  double_accurate u64 (out2 (Fluid_Gassmann NumPy #(dval (dz 12 0)) #(dval (dz 9 0)) #(dval (dz 37 0)) #(dval (dz 9 (-2))) #(dval (dz 1 (-2))))%fl) [34; 1]%nat
    (drun correct_machine arr_Fluid_Gassmann [dz 12 0; dz 9 0; dz 37 0; dz 9 (-2); dz 1 (-2)]).
Proof.
  pose proof u64_small. destruct C86_machine_exists as (HL & HM).
  apply (C86_gassmann u64 correct_machine ltac:(lra) HL HM); try (apply size_sized); try (apply size_size0); try sz.
  - val 1%Z (-2)%Z; lra.
  - val 9%Z (-2)%Z; val 37%Z 0%Z; lra.
  - val 12%Z 0%Z; val 37%Z 0%Z; lra.
Qed.
(** A quiet run: lame(37, 44). *)
Example C86_quiet_example : quiet correct_machine arr_utils_lame [dz 37 0; dz 44 0].
Proof.
  destruct C86_machine_exists as (HL & _).
  assert (R : forall r, 1 <= r <= 1000 -> in_range r).
  { intros r H. right. rewrite Rabs_right by lra. split.
    - apply Rle_trans with (/ 1); [|lra]. apply Rinv_le_contravar; [lra|apply pow_R1_Rle; lra].
    - assert (2 ^ 11 <= 2 ^ 1023) by (apply Rle_pow; lra || lia). lra. }
  unfold arr_utils_lame. cbn [quiet quiet_expr app dev nth]. rewrite (literal_int _ 2 HL), (literal_int _ 3 HL) by lia.
  val 37%Z 0%Z. val 44%Z 0%Z. val 2%Z 0%Z. val 3%Z 0%Z.
  assert (E1 : dsem2 correct_machine OMul (dz 2 0) (dz 44 0) = dz 88 0) by (apply (B2SF_inj 53 1024); lazy; reflexivity).
  assert (E2 : dsem2 correct_machine ODiv (dz 88 0) (dz 3 0) = dz 8256599316845909 (-48)) by (apply (B2SF_inj 53 1024); lazy; reflexivity).
  rewrite E1, E2. val 88%Z 0%Z. val 8256599316845909%Z (-48)%Z. cbn [def2 rsem2].
  repeat match goal with |- _ /\ _ => split end; try exact I; try lra; try (apply R; rewrite ?H0, ?H2, ?H4, ?H6, ?H8, ?H10; lra).
  intros e [<-|[]]. exact I.
Qed.
(** Sizes of ordinary rock-physics values, in GPa, g/cc, MPa, metres and m^2 alike: within the ranges of the theorems. *)
Example C86_values_example :
  (* lame, poisson: calcite; crack_por *) size 300 (dz 77 0) /\ size 300 (dz 32 0) /\ 4 * dval (dz 32 0) <= 3 * dval (dz 77 0) /\ sized 400 (dz 1 (-5)) /\
  (* HS, cripor: a clay fraction 1/4 in quartz, porosity 1/4 and critical porosity 3/8 *)
  size0 100 (dz 1 (-2)) /\ dval (dz 1 (-2)) <= 1 /\ dval (dz 21 0) < dval (dz 37 0) /\ 4 * dval (dz 1 (-2)) <= 3 * dval (dz 3 (-3)) /\
  (* M_from_V: 4 and 2 km/s *) 8 * dval (dz 2000 0) ^ 2 <= 3 * dval (dz 4000 0) ^ 2 /\ size 250 (dz 2000 0) /\ size 250 (dz 4000 0) /\
  (* Geertsma_Smit: permeability 2^-43 m^2 = 0.1 darcy, viscosity 2^-10 Pa s, 2^20 Hz *)
  size 70 (dz 1 (-43)) /\ size 30 (dz 1 (-10)) /\ size 40 (dz 1 20) /\ size 20 (dz 4000 0) /\
  (* Kozeny_Carman: grains of 2^-13 m *) sized 120 (dz 1 (-13)).
Proof.
  assert (P : forall n z e, (0 < z <= 2 ^ 53)%Z -> (-1074 <= e <= 970)%Z -> / 2 ^ n <= IZR z * bp e <= 2 ^ n -> size n (dz z e))
    by (intros; apply dz_size; lia || auto).
  assert (Q : forall n z e, (0 < z <= 2 ^ 53)%Z -> (-50 <= e <= 20)%Z -> (Z.log2_up z + e <= Z.of_nat n)%Z -> (- Z.of_nat n <= e)%Z -> size n (dz z e)).
  { intros n z e Hz He H1 H2. apply P; auto; [lia|]. rewrite <- bp_inv, <- bp_pow.
    assert (1 <= IZR z) by (apply IZR_le; lia). pose proof (bpow_gt_0 Zaux.radix2 e). split.
    - apply Rle_trans with (1 * bp e); [rewrite Rmult_1_l; apply bpow_le; lia|]. apply Rmult_le_compat_r; lra.
    - apply Rle_trans with (bp (Z.log2_up z) * bp e); [|rewrite <- bpow_plus; apply bpow_le; lia]. apply Rmult_le_compat_r; [lra|].
      rewrite <- IZR_Zpower by apply Z.log2_up_nonneg. apply IZR_le. change (Zaux.radix_val Zaux.radix2) with 2%Z.
      destruct (Z.eq_dec z 1) as [-> | N]; [cbn; lia|]. apply Z.log2_up_spec; lia. }
  val 77%Z 0%Z. val 32%Z 0%Z. val 1%Z (-2)%Z. val 21%Z 0%Z. val 37%Z 0%Z. val 3%Z (-3)%Z. val 2000%Z 0%Z. val 4000%Z 0%Z.
  repeat match goal with |- _ /\ _ => split end; try lra; try (apply size_sized); try (apply size_size0); try (apply Q; cbn; lia).
  rewrite H12, H14. lra.
Qed.
(** A pack of quartz grains at 20 MPa. *)
Example C86_hertzmindlin_example :
  size 50 (dz 36 0) /\ size 50 (dz 45 0) /\ size0 50 (dz 3 (-3)) /\ size 20 (dz 9 0) /\ size 50 (dz 20 0) /\ size0 20 (dz 1 0) /\
  4 * dval (dz 45 0) <= 5 * dval (dz 36 0) /\ dval (dz 3 (-3)) < 1 /\
  exists K G, GM_hertzmindlin NumPy #(dval (dz 36 0)) #(dval (dz 45 0)) #(dval (dz 3 (-3))) #(dval (dz 9 0)) #(dval (dz 20 0)) #(dval (dz 1 0)) = Ret (#K, #G)%fl /\
    Rabs (ln K) <= 20.
Proof.
  val 36%Z 0%Z. val 45%Z 0%Z. val 3%Z (-3)%Z. val 9%Z 0%Z. val 20%Z 0%Z. val 1%Z 0%Z.
  repeat (split; [try (apply size_size0); try sz; lra|]).
  replace (dval (dz 36 0)) with 36 by lra. replace (dval (dz 45 0)) with 45 by lra. replace (dval (dz 3 (-3))) with 0.375 by lra.
  replace (dval (dz 9 0)) with 9 by lra. replace (dval (dz 20 0)) with 20 by lra. replace (dval (dz 1 0)) with 1 by lra.
  rewrite (L_GM1.hertzmindlin_fin NumPy 36 45 0.375 9) by lra. cbv zeta. do 2 eexists; split; [reflexivity|].
  pose proof PI_RGT_0 as PP. pose proof PI_4 as P4. pose proof PI2_3_2 as P3.
  assert (B : 1 <= Spec3.hertz_K3 36 45 0.375 9 (20 / 1000) <= 61).
  { unfold Spec3.hertz_K3, Spec3.poisson.
    replace (9 ^ 2 * (1 - 0.375) ^ 2 * 45 ^ 2 * (20 / 1000)) with 1281.4453125 by lra.
    replace (18 * PI ^ 2 * (1 - (3 * 36 - 2 * 45) / (6 * 36 + 2 * 45)) ^ 2) with (18 * (16 / 17) ^ 2 * PI ^ 2) by field.
    assert (9 <= PI ^ 2 <= 16) by (split; [nra|]; replace 16 with (4 ^ 2) by ring; apply pow_incr; lra).
    split; [apply RealLemmas.le_div_iff; lra|apply RealLemmas.div_le_iff; lra]. }
  set (x := Spec3.hertz_K3 36 45 0.375 9 (20 / 1000)) in *. unfold L_GM1.cbrt. destruct Rlt_dec; [|lra].
  unfold Rpower. rewrite ln_exp.
  assert (0 <= ln x) by (rewrite <- ln_1; destruct (proj1 B) as [L|<-]; [left; apply ln_increasing; lra|lra]).
  assert (ln x <= 60).
  { rewrite <- (ln_exp 60). left. apply ln_increasing; [lra|]. pose proof (exp_ineq1 60 ltac:(lra)). lra. }
  rewrite Rabs_right; lra.
Qed.
