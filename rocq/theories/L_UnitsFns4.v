(** * L_UnitsFns4: changes of units for Brown-Korringa, grain packs with solvers, meshes and tables. *)
From Verif Require Import Spec Spec20 Fl Cx M_Utils M_EM M_Anis M_Fluid M_GM M_Perm M_Emp M_AVO M_QI M_Array L_Utils L_Anis L_Fluid1 L_Fluid3 L_Units L_Units2 L_UnitsFns L_UnitsFns2 L_UnitsFns3.
Open Scope R_scope.

Section Fns.
Variables (u : units) (m : mode).
(** ** Matrix inverse *)
Definition smat d (A : rmat) : rmat := fun i j => factor u d * A i j.
Lemma inm_finmat d A : inm u d (finmat A) = finmat (smat d A).
Proof. unfold inm, finmat, tab6. rewrite map_map. apply map_ext. intros i. rewrite map_map. apply map_ext. intros j. reflexivity. Qed.
Lemma smat_inverse d e A B : dmul d e = dless -> is_inverse A B -> is_inverse (smat d A) (smat e B).
Proof.
  intros H [H1 H2]. assert (F : factor u d * factor u e = 1) by (rewrite <- factor_dmul, H; apply factor_dless).
  split; intros i j Hi Hj; [rewrite <- (H1 i j Hi Hj)|rewrite <- (H2 i j Hi Hj)]; unfold smat, mmul, sum6;
  generalize dependent (factor u d); generalize (factor u e); intros y x F; clear - F;
  set (t := _ + _ + _ + _ + _ + _); match goal with |- _ = ?r => replace r with ((x * y) * r) by (rewrite F; ring) end; unfold t; ring.
Qed.
Lemma inv_units inv d e A B : inverts inv -> is_inverse A B -> dmul d e = dless -> inv (inm u d (finmat A)) = after (inm u e) (inv (finmat A)).
Proof.
  intros H I E. rewrite inm_finmat, (H _ _ I), (H _ _ (smat_inverse d e A B E I)). cbn [after call]. rewrite inm_finmat. reflexivity.
Qed.
Lemma sc_fcol3 d S j : fcol3 (inm u d S) j = inu u d (fcol3 S j).
Proof. unfold fcol3. repeat apply sc_add; apply sc_mget. Qed.
Section BK.
Variables (inv : np_inv_t) (k g : R) (Hi : inverts inv) (Hk : k <> 0) (Hg : g <> 0).
Lemma write_iso_inv_units : call (utils_write_iso m (inu u stress (Fin k)) (inu u stress (Fin g))) inv = after (inm u compliance) (call (utils_write_iso m (Fin k) (Fin g)) inv).
Proof.
  rewrite units_utils_write_iso, write_iso_eval. cbn [after call]. apply (inv_units inv stress compliance (iso k g) (isoc k g)); auto.
  apply isoc_inverse; auto.
Qed.
Lemma call_write_iso K G B (h : mat -> outcome B) :
  call (utils_write_iso m K G) (fun C => call (inv C) h) = call (call (utils_write_iso m K G) inv) h.
Proof. destruct (utils_write_iso m K G); reflexivity. Qed.
Lemma units_dry2sat S Kfl phi :
  Fluid_Brown_Korringa_dry2sat m inv (inm u compliance S) (inu u stress (Fin k)) (inu u stress (Fin g)) (inu u stress Kfl) phi
  = after (inm u compliance) (Fluid_Brown_Korringa_dry2sat m inv S (Fin k) (Fin g) Kfl phi).
Proof.
  unfold Fluid_Brown_Korringa_dry2sat.
  eapply (sc_bind0 u) with (d := compliance); [reflexivity|eapply sc_div; [apply sc_lit|reflexivity|dcomp]|intro b0; cbv beta].
  eapply (sc_bind0 u) with (d := compliance); [reflexivity|rewrite !sc_fcol3; sc|intro bd; cbv beta].
  eapply (sc_bind0 u) with (d := compliance); [reflexivity|sc|intro bf; cbv beta].
  rewrite !call_write_iso, write_iso_inv_units. cl; [reflexivity|intro S0; cbv beta zeta].
  eapply (sc_bind0 u) with (d := compliance); [reflexivity|sc|intro dn; cbv beta].
  cbn [after call]. f_equal. apply inm_ftab6. intros i j. rewrite !sc_fcol3. sc.
Qed.
Lemma units_sat2dry S Kfl phi :
  Fluid_Brown_Korringa_sat2dry m inv (inm u compliance S) (inu u stress (Fin k)) (inu u stress (Fin g)) (inu u stress Kfl) phi
  = after (inm u compliance) (Fluid_Brown_Korringa_sat2dry m inv S (Fin k) (Fin g) Kfl phi).
Proof.
  unfold Fluid_Brown_Korringa_sat2dry.
  eapply (sc_bind0 u) with (d := compliance); [reflexivity|eapply sc_div; [apply sc_lit|reflexivity|dcomp]|intro b0; cbv beta].
  eapply (sc_bind0 u) with (d := compliance); [reflexivity|rewrite !sc_fcol3; sc|intro bd; cbv beta].
  eapply (sc_bind0 u) with (d := compliance); [reflexivity|sc|intro bf; cbv beta].
  rewrite !call_write_iso, write_iso_inv_units. cl; [reflexivity|intro S0; cbv beta zeta].
  eapply (sc_bind0 u) with (d := compliance); [reflexivity|sc|intro dn; cbv beta].
  cbn [after call]. f_equal. apply inm_ftab6. intros i j. rewrite !sc_fcol3. sc.
Qed.
Lemma units_BK_sub A B D E Kf1 Kf2 phi : is_inverse A B -> is_inverse D E ->
  Fluid_Brown_Korringa_sub m inv (finmat A) (Fin k) (Fin g) Kf1 Kf2 phi = Ret (finmat E, finmat D) ->
  Fluid_Brown_Korringa_sub m inv (inm u stress (finmat A)) (inu u stress (Fin k)) (inu u stress (Fin g)) (inu u stress Kf1) (inu u stress Kf2) phi
  = Ret (inm u stress (finmat E), inm u compliance (finmat D)).
Proof.
  intros H1 H2. unfold Fluid_Brown_Korringa_sub. rewrite (inv_units inv stress compliance A B) by auto.
  rewrite (Hi _ _ H1). cbn [after call]. rewrite units_sat2dry.
  destruct (Fluid_Brown_Korringa_sat2dry _ _ _ _ _ _ _) as [Sd| |]; cbn [after call]; try discriminate.
  rewrite units_dry2sat. destruct (Fluid_Brown_Korringa_dry2sat _ _ _ _ _ _ _) as [S2| |]; cbn [after call]; try discriminate.
  destruct (inv S2) as [C2| |] eqn:EQ; cbn [call]; try discriminate. intros X. assert (C2 = finmat E /\ S2 = finmat D) as [-> ->] by (split; congruence).
  rewrite (inv_units inv compliance stress D E) by auto. rewrite EQ. reflexivity.
Qed.
End BK.
(** ** Grain packs *)
Lemma units_GM_johnson K0 G0 n phi eps epsa path : path <> "iso-uni"%string ->
  GM_johnson m (inu u stress K0) (inu u stress G0) n phi eps epsa path
  = after (fun '(C, s33, s11) => (inm u stress C, inu u stress s33, inu u stress s11)) (GM_johnson m K0 G0 n phi eps epsa path).
Proof.
  intros NP. apply String.eqb_neq in NP. unfold GM_johnson. rewrite NP. unfold utils_poi, utils_write_VTI_matrix. scs.
Qed.
Lemma units_GM_Digby rts K0 G0 phi Cn sigma a_R :
  GM_Digby m rts (inu u stress K0) (inu u stress G0) phi Cn (inu u stress sigma) a_R
  = after (fun '(K, G) => (inl u stress K, inl u stress G)) (GM_Digby m rts K0 G0 phi Cn sigma a_R).
Proof.
  unfold GM_Digby. cbv zeta. scstep.
  eapply (sc_bind0 u) with (d := dless); [reflexivity|sc|intro nu; cbv beta; rewrite inu_dless].
  eapply (sc_bind0 u) with (d := dless); [reflexivity|sc|intro c2; cbv beta; rewrite inu_dless].
  eapply (sc_bind0 u) with (d := dless); [reflexivity|sc|intro c3; cbv beta; rewrite inu_dless].
  eapply (sc_bind0 u) with (d := dless); [reflexivity|sc|intro o; cbv beta; rewrite inu_dless].
  scstep. cbn [after call]. apply f_equal. generalize (map (fun x => fsqrt (x ^^ 2 + a_R ^^ 2)) (filter (fun x => match fleb #0 x with Some true => true | _ => false end) (map creal (rts [#1; #0; c2; c3])))).
  intros l. unfold inl. rewrite !map_map. f_equal; apply map_ext; intros x; sc.
Qed.
(** ** Meshes and tables *)
Lemma omap_ext_ A B (f g : A -> outcome B) l : (forall x, f x = g x) -> omap f l = omap g l.
Proof. intros H. induction l as [|x l I]; cbn; [reflexivity|]. rewrite H, I. reflexivity. Qed.
Lemma oseq_after A B (f g : A -> outcome B) h l : (forall x, g x = after h (f x)) -> oseq g l = after (map h) (oseq f l).
Proof.
  intros H. induction l as [|x l I]; cbn; [reflexivity|]. rewrite H, I. destruct (f x); cbn; auto. destruct (oseq f l); reflexivity.
Qed.
Lemma omap_after A A' B (f : A -> outcome B) (g : A' -> outcome B) k h l : (forall x, g (k x) = after h (f x)) -> omap g (map k l) = after (map h) (omap f l).
Proof.
  intros H. induction l as [|x l I]; cbn; [reflexivity|]. rewrite H, I. destruct (f x); cbn; auto. destruct (omap f l); reflexivity.
Qed.
Lemma units_AVO_HTI D1 D2 C1 C2 th az :
  AVO_HTI (inu u density D1) (inu u density D2) (inm u stress C1) (inm u stress C2) th az = AVO_HTI D1 D2 C1 C2 th az.
Proof. unfold AVO_HTI. apply omap_ext_. intros a. apply omap_ext_. intros t. apply units_AVO_HTI_elem. Qed.
Lemma units_EI_sample ipn isn Vp0 Vs0 Vp Vs rho th SP :
  AVO_EI_sample m (inu u impedance ipn) (inu u impedance isn) (inu u velocity Vp0) (inu u velocity Vs0) Vp Vs rho th SP
  = after (inei u) (AVO_EI_sample m ipn isn Vp0 Vs0 Vp Vs rho th SP).
Proof.
  unfold AVO_EI_sample. repeat (lazymatch goal with |- Ret _ = _ => fail | _ => scstep end).
  cbn [after call]. unfold inei. cbn [EI_pp EI_psv EI_svp EI_svsv EI_shsh]. reflexivity.
Qed.
Lemma sc_np_mean d l : np_mean (inl u d l) = inu u (ddiv d dless) (np_mean l).
Proof. unfold np_mean. rewrite sc_fsum, inl_length. eapply sc_div; [reflexivity|apply sc_lit|reflexivity]. Qed.
Lemma units_AVO_EI_ref samples th SP :
  AVO_EI_ref m (map (in3 u velocity velocity density) samples) th SP true = after (map (inei u)) (AVO_EI_ref m samples th SP true).
Proof.
  unfold AVO_EI_ref. cbv zeta. rewrite !map_map.
  rewrite (map_ext (fun x => fst (fst (in3 u velocity velocity density x))) (fun x => inu u velocity (fst (fst x)))) by (intros ((a & b) & c); reflexivity).
  rewrite (map_ext (fun x => snd (fst (in3 u velocity velocity density x))) (fun x => inu u velocity (snd (fst x)))) by (intros ((a & b) & c); reflexivity).
  rewrite (map_ext (fun x => snd (in3 u velocity velocity density x)) (fun x => inu u density (snd x))) by (intros ((a & b) & c); reflexivity).
  rewrite <- (map_map (fun x => fst (fst x)) (inu u velocity)), <- (map_map (fun x => snd (fst x)) (inu u velocity)), <- (map_map (fun x => snd x) (inu u density)).
  fold (inl u velocity (map (fun x => fst (fst x)) samples)) (inl u velocity (map (fun x => snd (fst x)) samples)) (inl u density (map (fun x => snd x) samples)).
  rewrite !sc_np_mean.
  change (ddiv velocity dless) with velocity. change (ddiv density dless) with density.
  apply omap_after. intros ((Vp & Vs) & rho). cbn [in3].
  change (map (fun x => snd x) samples) with (map snd samples).
  set (a := np_mean (map (fun x => fst (fst x)) samples)). set (b := np_mean (map (fun x => snd (fst x)) samples)). set (c := np_mean (map snd samples)).
  assert (H1 : fdiv NumPy (inu u velocity Vp) (inu u velocity a) = fdiv NumPy Vp a) by (rewrite <- (inu_dless u (fdiv NumPy Vp a)); sc).
  assert (H2 : fdiv NumPy (inu u velocity Vs) (inu u velocity b) = fdiv NumPy Vs b) by (rewrite <- (inu_dless u (fdiv NumPy Vs b)); sc).
  assert (H3 : fdiv NumPy (inu u density rho) (inu u density c) = fdiv NumPy rho c) by (rewrite <- (inu_dless u (fdiv NumPy rho c)); sc).
  rewrite H1, H2, H3.
  assert (H4 : forall x, fmul (inu u velocity x) (inu u density c) = inu u impedance (fmul x c)) by (intros; sc).
  rewrite !H4. apply units_EI_sample.
Qed.
Lemma units_QI_screening Dqz Kqz Gqz Dsh Ksh Gsh Dc Kc Gc Db Kb phib phic sigma vsh scheme f Cn :
  QI_screening (inu u density Dqz) (inu u stress Kqz) (inu u stress Gqz) (inu u density Dsh) (inu u stress Ksh) (inu u stress Gsh) (inu u density Dc) (inu u stress Kc) (inu u stress Gc)
    (inu u density Db) (inu u stress Kb) phib phic (inu u stress sigma) vsh scheme f Cn
  = after (fun '(phi, rows) => (phi, map (in6 u velocity velocity velocity velocity velocity velocity) rows))
      (QI_screening Dqz Kqz Gqz Dsh Ksh Gsh Dc Kc Gc Db Kb phib phic sigma vsh scheme f Cn).
Proof.
  unfold QI_screening. cl; [apply units_QI_mineral|]. intros ((K0 & G0) & D0). cbv beta iota delta [in3].
  cl; [apply oseq_after; intros x; apply units_QI_screening_elem|]. intros rows. reflexivity.
Qed.
Lemma units_QI_rpt_point Kd Gd K0 D0 Kb Db Kh Dh phi v :
  QI_rpt_point (inu u stress Kd) (inu u stress Gd) (inu u stress K0) (inu u density D0) (inu u stress Kb) (inu u density Db) (inu u stress Kh) (inu u density Dh) phi v
  = after (in2 u impedance dless) (QI_rpt_point Kd Gd K0 D0 Kb Db Kh Dh phi v).
Proof. unfold QI_rpt_point, Fluid_vels, Fluid_Gassmann. scs. Qed.
Lemma units_EM_SC_dilute Km Gm Ki Gi f md : EM_SC_dilute m (inu u stress Km) (inu u stress Gm) (inu u stress Ki) (inu u stress Gi) f md = EM_SC_dilute m Km Gm Ki Gi f md.
Proof. dless (after_dless2 u). unfold EM_SC_dilute. scs. Qed.
Lemma units_Perm_Fredrich phi d b : Perm_Fredrich m phi (inu u length_d d) b = after (inu u (-2, 0, 0)%Q) (Perm_Fredrich m phi d b).
Proof. unfold Perm_Fredrich. scs. Qed.
End Fns.
