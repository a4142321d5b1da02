(** * Property theorems about the figures of QI.py (C70-C72). *)
From Coq Require Import Lra Lia Sorting.Sorted.
From Verif Require Import Fl M_Utils M_EM M_GM M_Fluid M_Emp M_QI M_Plot Spec Spec3 Spec6 Spec11 RealLemmas L_Lists L_QI L_Plot P_QI.
Open Scope R_scope.

(** ** C70: the rock physics template as drawn *)
(** One curve per porosity, through its points at the given saturations in the given order, and a last curve through the
    points of all porosities at the last saturation. With increasing saturations the velocity ratio increases along every
    curve, and so does the impedance if the brine is denser than the hydrocarbon. *)
Theorem C70_template_figure rock sw K0 D0 Kb Db Khc Dhc :
  (forall r, In r rock -> dry_rock K0 r) -> (forall s, In s sw -> 0 <= s <= 1) -> sw <> [] ->
  0 < Khc < Kb -> Kb < K0 -> 0 < D0 -> 0 < Db -> 0 < Dhc -> exists IP PS : R * R * R -> R -> R,
  (forall Kd Gd phi s, In (Kd, Gd, phi) rock -> In s sw ->
     QI_rpt_point (Fin Kd) (Fin Gd) (Fin K0) (Fin D0) (Fin Kb) (Fin Db) (Fin Khc) (Fin Dhc) (Fin phi) (Fin s) = Ret (Fin (IP (Kd, Gd, phi) s), Fin (PS (Kd, Gd, phi) s))) /\
  QI_plot_rpt (map rock_fl rock) (Fin K0) (Fin D0) (Fin Kb) (Fin Db) (Fin Khc) (Fin Dhc) (map Fin sw) =
    Ret (map (fun r => Curve (map (fun s => Fin (IP r s)) sw) (map (fun s => Fin (PS r s)) sw)) rock
         ++ [Curve (map (fun r => Fin (IP r (last sw 0))) rock) (map (fun r => Fin (PS r (last sw 0))) rock)]) /\
  (StronglySorted Rlt sw -> forall r, In r rock ->
     StronglySorted Rlt (map (PS r) sw) /\ (Dhc <= Db -> StronglySorted Rlt (map (IP r) sw))).
Proof.
  intros HR HS Hne HF HK HD HDb HDh.
  set (pt := fun (r : R * R * R) s => QI_rpt_point (Fin (fst (fst r))) (Fin (snd (fst r))) (Fin K0) (Fin D0) (Fin Kb) (Fin Db) (Fin Khc) (Fin Dhc) (Fin (snd r)) (Fin s)).
  set (IP := fun r s => match pt r s with Ret (Fin a, _) => a | _ => 0 end). set (PS := fun r s => match pt r s with Ret (_, Fin a) => a | _ => 0 end).
  assert (E : forall r s, In r rock -> In s sw -> pt r s = Ret (Fin (IP r s), Fin (PS r s))).
  { intros r s Ir Is. specialize (HR r Ir). destruct r as ((Kd & Gd) & phi). destruct HR as (R1 & R2 & R3).
    destruct (C68_template_point Kd Gd K0 D0 Kb Db Khc Dhc phi s) as (vp & vs & rho & ip & ps & _ & E & _); try lra; [apply HS; exact Is|].
    unfold IP, PS, pt. cbn [fst snd]. rewrite E. reflexivity. }
  exists IP, PS. split; [|split].
  - intros Kd Gd phi s Ir Is. exact (E (Kd, Gd, phi) s Ir Is).
  - apply rpt_eval; [exact Hne|]. intros ((Kd & Gd) & phi) s Ir Is. exact (E (Kd, Gd, phi) s Ir Is).
  - intros SS r Ir. assert (T : forall s s', In s sw -> In s' sw -> s < s' -> PS r s < PS r s' /\ (Dhc <= Db -> IP r s < IP r s')).
    { intros s s' Is Is' L. assert (E1 := E r s Ir Is). assert (E2 := E r s' Ir Is'). specialize (HR r Ir). destruct r as ((Kd & Gd) & phi). destruct HR as (R1 & R2 & R3).
      assert (B1 := HS s Is). assert (B2 := HS s' Is').
      apply (C68_saturation_trend Kd Gd K0 D0 Kb Db Khc Dhc phi s s'); try assumption; lra. }
    clear - T SS. induction SS as [|s sw SS IH HF]; [split; constructor|].
    rewrite Forall_forall in HF. destruct IH as [I1 I2]. { intros; apply T; auto; right; auto. }
    split; [|intros HDD; specialize (I2 HDD)]; cbn [map]; constructor; auto; apply Forall_map, Forall_forall; intros s' Hs'; apply T; auto; solve [left; auto | right; auto].
Qed.
Print Assumptions C70_template_figure.
(** The curve marked as brine is that of the brine-saturated rocks when the last saturation is 1. *)
Theorem C70_brine_line Kd Gd phi K0 D0 Kb Db Khc Dhc :
  dry_rock K0 (Kd, Gd, phi) -> 0 < Khc < K0 -> 0 < Kb < K0 -> 0 < D0 -> 0 < Db -> 0 < Dhc -> exists vp vs rho,
  Fluid_vels NumPy (Fin Kd) (Fin Gd) (Fin K0) (Fin D0) (Fin Kb) (Fin Db) (Fin phi) = Ret (Fin vp, Fin vs, Fin rho) /\
  QI_rpt_point (Fin Kd) (Fin Gd) (Fin K0) (Fin D0) (Fin Kb) (Fin Db) (Fin Khc) (Fin Dhc) (Fin phi) (Fin 1) = Ret (Fin (vp * rho), Fin (vp / vs)).
Proof.
  intros (R1 & R2 & R3) H1 H2 H3 H4 H5.
  destruct (C68_template_point Kd Gd K0 D0 Kb Db Khc Dhc phi 1) as (vp & vs & rho & ip & ps & A & E & -> & -> & _ & _ & _ & W & _); try lra.
  exists vp, vs, rho. split; [|exact E]. rewrite W in A by reflexivity. rewrite <- A. do 2 f_equal. lra.
Qed.
Print Assumptions C70_brine_line.
(** Refuted: it is the brine line whatever the order of the saturations. Given saturations that end below 1 (say, falling from
    1), its points all have a smaller velocity ratio than the brine-saturated rocks. *)
Theorem C70_brine_line_refuted rock sw K0 D0 Kb Db Khc Dhc :
  (forall r, In r rock -> dry_rock K0 r) -> (forall s, In s sw -> 0 <= s <= 1) -> sw <> [] -> last sw 0 < 1 ->
  0 < Khc < Kb -> Kb < K0 -> 0 < D0 -> 0 < Db -> 0 < Dhc -> exists curves xs ys,
  QI_plot_rpt (map rock_fl rock) (Fin K0) (Fin D0) (Fin Kb) (Fin Db) (Fin Khc) (Fin Dhc) (map Fin sw) = Ret (curves ++ [Curve xs (map Fin ys)]) /\
  Forall2 (fun r y => let '(Kd, Gd, phi) := rock_fl r in exists ip ps,
     QI_rpt_point Kd Gd (Fin K0) (Fin D0) (Fin Kb) (Fin Db) (Fin Khc) (Fin Dhc) phi (Fin 1) = Ret (ip, Fin ps) /\ y < ps) rock ys.
Proof.
  intros HR HS Hne HL HF HK HD HDb HDh. destruct (C70_template_figure rock sw K0 D0 Kb Db Khc Dhc) as (IP & PS & E1 & E2 & _); auto.
  do 3 eexists. split.
  - rewrite E2. do 4 f_equal. symmetry. exact (map_map (fun r => PS r (last sw 0)) Fin rock).
  - assert (IL : In (last sw 0) sw) by (apply last_In; exact Hne). assert (BL := HS _ IL).
    assert (X : forall r, In r rock -> let '(Kd, Gd, phi) := rock_fl r in exists ip ps,
      QI_rpt_point Kd Gd (Fin K0) (Fin D0) (Fin Kb) (Fin Db) (Fin Khc) (Fin Dhc) phi (Fin 1) = Ret (ip, Fin ps) /\ PS r (last sw 0) < ps).
    { intros ((Kd & Gd) & phi) Ir. cbn [rock_fl]. assert (R0 := HR _ Ir). destruct R0 as (R1 & R2 & R3).
      destruct (C68_template_point Kd Gd K0 D0 Kb Db Khc Dhc phi 1) as (vp & vs & rho & ip & ps & _ & E & _); try lra.
      exists (Fin ip), ps. split; [exact E|].
      assert (E3 := E1 Kd Gd phi _ Ir IL).
      apply (C68_saturation_trend Kd Gd K0 D0 Kb Db Khc Dhc phi (last sw 0) 1 (IP (Kd, Gd, phi) (last sw 0)) _ ip ps); try assumption; lra. }
    clear - X. induction rock as [|r rock IH]; constructor; [apply X; left; reflexivity|apply IH; intros; apply X; right; assumption].
Qed.
Print Assumptions C70_brine_line_refuted.
Theorem C70_no_saturation_raises rock K0 D0 Kb Db Khc Dhc : QI_plot_rpt rock K0 D0 Kb Db Khc Dhc [] = Raise IndexError.
Proof. reflexivity. Qed.
Print Assumptions C70_no_saturation_raises.
Example C70_nonvacuous : (forall r, In r [(10, 9, 1/10); (5, 4, 3/10)] -> dry_rock 36 r) /\ (forall s, In s [0; 1/2; 1] -> 0 <= s <= 1) /\ StronglySorted Rlt [0; 1/2; 1].
Proof.
  split; [|split].
  - intros r [<-|[<-|[]]]; cbn; lra.
  - intros s [<-|[<-|[<-|[]]]]; lra.
  - repeat constructor; lra.
Qed.

(** ** C71: the diagnostic figures *)
(** [cst_plot]: the contact-cement curve and the friable-sand curve of [screening], then one constant-cement curve per
    porosity given, all on the same grid of porosities. Beyond its own end porosity a constant-cement curve is not drawn. *)
Theorem C71_cst_figure m Dqz Kqz Gqz Dsh Ksh Gsh Dc Kc Gc Db Kb b bs phi_c sigma vsh scheme f Cn :
  0 < Kc -> 0 < Gc -> b <= phi_c -> phi_c < 1 -> 0 < Cn -> 0 <= vsh <= 1 -> 0 < Kqz -> 0 < Gqz -> 0 < Ksh -> 0 < Gsh ->
  0 < Dsh -> 0 < Dqz -> 0 < Dc -> (forall b', In b' bs -> b' <> 1) ->
  let K0 := Fin (hill [vsh; 1 - vsh] [Ksh; Kqz]) in let G0 := Fin (hill [vsh; 1 - vsh] [Gsh; Gqz]) in
  exists phis rows lines, QI_screening (Fin Dqz) (Fin Kqz) (Fin Gqz) (Fin Dsh) (Fin Ksh) (Fin Gsh) (Fin Dc) (Fin Kc) (Fin Gc) (Fin Db) (Fin Kb)
      (Fin b) (Fin phi_c) (Fin sigma) (Fin vsh) scheme (Fin f) (Fin Cn) = Ret (map Fin phis, rows) /\
    QI_cst_plot m (Fin Dqz) (Fin Kqz) (Fin Gqz) (Fin Dsh) (Fin Ksh) (Fin Gsh) (Fin Dc) (Fin Kc) (Fin Gc) (Fin Db) (Fin Kb)
      (Fin b) (map Fin bs) (Fin phi_c) (Fin sigma) (Fin vsh) (Fin Cn) scheme (Fin f) =
    Ret (Curve (map Fin phis) (map (fun '(vp1, vp2, vp3, vs1, vs2, vs3) => vp3) rows)
         :: Curve (map Fin phis) (map (fun '(vp1, vp2, vp3, vs1, vs2, vs3) => vp1) rows)
         :: map (Curve (map Fin phis)) lines) /\
    Forall2 (fun b' line => Forall2 (fun phi v => (b' < phi -> v = NaN) /\ forall D0, exists vs,
      QI_cst_vels m (Fin b') K0 D0 G0 (Fin phi) (Fin phi_c) (Fin Cn) (Fin Kc) (Fin Gc) (Fin Db) (Fin Kb) scheme (Fin vsh) (Fin Dsh) (Fin Dqz) (Fin Dc) = Ret (v, vs)) phis line) bs lines.
Proof.
  intros C1 C2 C3 C4 C5 Hv P1 P2 P3 P4 D1 D2 D3 Hb K0 G0.
  destruct (C64_screening Dqz Kqz Gqz Dsh Ksh Gsh Dc Kc Gc Db Kb b phi_c sigma vsh scheme f Cn) as (phis & rows & E & L1 & L2 & _); try assumption.
  set (D0 := Fin (vsh * Dsh + (1 - vsh) * Dqz)).
  set (cv := fun b' p => QI_cst_vels m (Fin b') K0 D0 G0 (Fin p) (Fin phi_c) (Fin Cn) (Fin Kc) (Fin Gc) (Fin Db) (Fin Kb) scheme (Fin vsh) (Fin Dsh) (Fin Dqz) (Fin Dc)).
  set (v := fun b' p => match cv b' p with Ret (x, _) => x | _ => Und end). set (w := fun b' p => match cv b' p with Ret (_, x) => x | _ => Und end).
  assert (EV : forall b', In b' bs -> forall p, cv b' p = Ret (v b' p, w b' p)).
  { intros b' Ib p. unfold v, w. destruct (cst_ret m b' (hill [vsh; 1 - vsh] [Ksh; Kqz]) D0 (hill [vsh; 1 - vsh] [Gsh; Gqz]) p phi_c Cn Kc Gc Db Kb scheme vsh Dsh Dqz Dc) as (x & y & E'); auto.
    fold K0 G0 in E'. fold (cv b' p) in E'. rewrite E'. reflexivity. }
  exists phis, rows, (map (fun b' => map (v b') phis) bs). split; [exact E|]. split.
  - unfold QI_cst_plot. rewrite mineral_fin by assumption. cbn [call]. rewrite E. cbn [call].
    rewrite !plot_ok by (rewrite !map_length; congruence). cbn [call]. rewrite oseq_maps.
    replace (Fin (Dsh * vsh + Dqz * (1 - vsh))) with D0 by (unfold D0; apply f_equal; ring). fold K0 G0.
    rewrite (oseq_map _ (fun b' => Curve (map Fin phis) (map (v b') phis))).
    + cbn [call]. rewrite map_map. reflexivity.
    + intros b' Ib. rewrite oseq_maps. rewrite (oseq_map _ (fun p => (v b' p, w b' p))) by (intros p _; exact (EV b' Ib p)).
      cbn [call]. rewrite map_map. cbn [fst]. apply plot_ok. rewrite !map_length. reflexivity.
  - assert (X : forall b', In b' bs -> Forall2 (fun phi x => (b' < phi -> x = NaN) /\ forall D0, exists vs,
      QI_cst_vels m (Fin b') K0 D0 G0 (Fin phi) (Fin phi_c) (Fin Cn) (Fin Kc) (Fin Gc) (Fin Db) (Fin Kb) scheme (Fin vsh) (Fin Dsh) (Fin Dqz) (Fin Dc) = Ret (x, vs)) phis (map (v b') phis)).
    { intros b' Ib. specialize (EV b' Ib). clear - EV. induction phis as [|p phis IH]; constructor; [|exact IH]. split.
      - intros L. assert (X := EV p). unfold cv in X. apply C63_cst_vels_beyond in X; [apply X|exact L].
      - intros D'. exists (w b' p). rewrite <- (EV p). reflexivity. }
    clear - X. induction bs as [|b' bs IH]; constructor; [apply X; left; reflexivity|apply IH; intros; apply X; right; assumption].
Qed.
Print Assumptions C71_cst_figure.
(** Refuted: the heavy curve is the whole upper bound. Below the threshold porosity the figure leaves it blank, although [screening]
    returns a finite increasing-cement velocity there (which [screening_plot] draws). *)
Theorem C71_upper_bound_refuted m Dqz Kqz Gqz Dsh Ksh Gsh Dc Kc Gc Db Kb b bs phi_c sigma vsh scheme f Cn Kf Gf :
  let K0 := hill [vsh; 1 - vsh] [Ksh; Kqz] in let G0 := hill [vsh; 1 - vsh] [Gsh; Gqz] in
  0 < Kc -> 0 < Gc -> b <= phi_c -> 1e-7 < phi_c < 1 -> 0 < Cn -> 0 <= vsh <= 1 -> 0 < Kqz -> 0 < Gqz -> 0 < Ksh -> 0 < Gsh ->
  0 < Dsh -> 0 < Dqz -> 0 < Dc -> 0 < Db -> (forall b', In b' bs -> b' <> 1) ->
  GM_contactcement NumPy (Fin K0) (Fin G0) (Fin Kc) (Fin Gc) (Fin b) (Fin phi_c) (Fin Cn) scheme = Ret (Fin Kf, Fin Gf) ->
  0 < Kf < K0 -> 0 < Gf < G0 -> 0 < Kb < K0 ->
  exists phis rows ys rest, QI_screening (Fin Dqz) (Fin Kqz) (Fin Gqz) (Fin Dsh) (Fin Ksh) (Fin Gsh) (Fin Dc) (Fin Kc) (Fin Gc) (Fin Db) (Fin Kb)
      (Fin b) (Fin phi_c) (Fin sigma) (Fin vsh) scheme (Fin f) (Fin Cn) = Ret (map Fin phis, rows) /\
    QI_cst_plot m (Fin Dqz) (Fin Kqz) (Fin Gqz) (Fin Dsh) (Fin Ksh) (Fin Gsh) (Fin Dc) (Fin Kc) (Fin Gc) (Fin Db) (Fin Kb)
      (Fin b) (map Fin bs) (Fin phi_c) (Fin sigma) (Fin vsh) (Fin Cn) scheme (Fin f) = Ret (Curve (map Fin phis) ys :: rest) /\
    forall i, (i < 100)%nat -> nth i phis 0 < b -> nth_error ys i = Some NaN /\
      exists vp1 vp2 vp3 vs1 vs2 vs3, nth_error rows i = Some (vp1, Fin vp2, vp3, vs1, vs2, vs3) /\ 0 < vp2.
Proof.
  intros K0 G0 C1 C2 C3 C4 C5 Hv P1 P2 P3 P4 D1 D2 D3 D4 Hb Ec HKf HGf HKb.
  destruct (C71_cst_figure m Dqz Kqz Gqz Dsh Ksh Gsh Dc Kc Gc Db Kb b bs phi_c sigma vsh scheme f Cn) as (phis & rows & lines & E1 & E2 & _); auto; try lra.
  destruct (C64_screening Dqz Kqz Gqz Dsh Ksh Gsh Dc Kc Gc Db Kb b phi_c sigma vsh scheme f Cn) as (phis' & rows' & E3 & L1 & L2 & GR & R); auto; try lra.
  rewrite E1 in E3. injection E3 as Ep <-. assert (phis' = phis).
  { clear - Ep. revert phis' Ep. induction phis as [|x l IH]; intros [|y l'] H; try discriminate; [reflexivity|]. injection H as -> H. f_equal. auto. }
  subst phis'. do 4 eexists. split; [exact E1|]. split; [exact E2|]. intros i Hi Lt.
  destruct (nth_error rows i) as [[[[[[vp1 vp2] vp3] vs1] vs2] vs3]|] eqn:En.
  2:{ apply nth_error_None in En. lia. }
  destruct (R i vp1 vp2 vp3 vs1 vs2 vs3 Hi En) as (_ & A & _ & _ & B). destruct (B Lt) as [-> _]. split.
  { erewrite map_nth_error by exact En. reflexivity. }
  destruct A as (Kd & Gd & rho & A1 & A2); [lra|].
  assert (Pp : 0 < nth i phis 0).
  { rewrite GR by exact Hi. assert (0 <= INR i) by apply pos_INR. assert (0 < (phi_c - 1e-7) / 99) by (apply Rdiv_lt_0_compat; lra).
    assert (0 <= INR i * ((phi_c - 1e-7) / 99)) by (apply Rmult_le_pos; lra). lra. }
  destruct (C64_line_below_bound K0 G0 (vsh * Dsh + (1 - vsh) * Dqz) Kc Gc Db Kb b phi_c Cn scheme Kf Gf (nth i phis 0)) as (Kl & Gl & Ku & Gu & p & s & p2 & s2 & rh & _ & F1 & _ & F2 & F3 & F4 & _); auto; try lra.
  { assert (0 <= vsh * Dsh) by (apply Rmult_le_pos; lra). assert (0 <= (1 - vsh) * Dqz) by (apply Rmult_le_pos; lra).
    destruct (Req_dec vsh 0) as [->|]; [lra|]. assert (0 < vsh * Dsh) by (apply Rmult_lt_0_compat; lra). lra. }
  fold K0 G0 in A1, A2. rewrite A1 in F1. injection F1 as -> ->. rewrite A2 in F2. injection F2 as -> -> ->.
  do 6 eexists. split; [reflexivity|]. lra.
Qed.
Print Assumptions C71_upper_bound_refuted.

(** [screening_plot] draws the three bounds and one mark per sample, coloured by the sand fraction. *)
Theorem C71_screening_figure Vp por kw Vsh phi vp1 vp2 vp3 :
  kw_get "Vsh" kw = Some (map Fin Vsh) -> length por = length Vp -> length por = length Vsh ->
  length phi = length vp1 -> length phi = length vp2 -> length phi = length vp3 ->
  QI_screening_plot (QI_init Vp por kw) phi vp1 vp2 vp3 =
  Ret [Curve phi vp3; Curve phi vp1; Curve phi vp2; Points por Vp (map (fun v => Fin (1 - v)) Vsh)].
Proof.
  intros E L1 L2 L3 L4 L5. unfold QI_screening_plot. rewrite !plot_ok by assumption. cbn [call QI_init q_Vsh q_phi q_Vp]. rewrite E, map_map.
  rewrite scatter_ok by (rewrite ?map_length; assumption). cbn [call]. do 5 f_equal; apply map_ext; intros v; apply fsub_fin.
Qed.
Print Assumptions C71_screening_figure.
(** Refuted: the object can be plotted with the data it was given. A shale fraction passed under any other keyword is silently
    dropped, and the plot then fails. *)
Theorem C71_keyword_refuted Vp por kw phi vp1 vp2 vp3 :
  (forall k v, In (k, v) kw -> k <> "Vsh"%string) -> length phi = length vp1 -> length phi = length vp2 -> length phi = length vp3 ->
  QI_screening_plot (QI_init Vp por kw) phi vp1 vp2 vp3 = Raise TypeError.
Proof.
  intros H L1 L2 L3. unfold QI_screening_plot. rewrite !plot_ok by assumption. cbn [call QI_init q_Vsh].
  replace (kw_get "Vsh" kw) with (@None (list fl)); [reflexivity|]. induction kw as [|(k, v) kw IH]; [reflexivity|]. cbn [kw_get].
  destruct (String.eqb_spec "Vsh" k) as [<-|]; [exfalso; apply (H "Vsh"%string v); [left; reflexivity|reflexivity]|]. apply IH. intros; eapply H; right; eassumption.
Qed.
Print Assumptions C71_keyword_refuted.
Theorem C71_sample_mismatch_raises m Vp por kw vcem Dqz Kqz Gqz Dsh Ksh Gsh Dc Kc Gc Db Kb b bs phi_c sigma vsh Cn scheme f fig :
  length por <> length Vp ->
  QI_cst_plot m Dqz Kqz Gqz Dsh Ksh Gsh Dc Kc Gc Db Kb b bs phi_c sigma vsh Cn scheme f = Ret fig ->
  QI_cement_diag_plot m (QI_init Vp por kw) vcem Dqz Kqz Gqz Dsh Ksh Gsh Dc Kc Gc Db Kb b bs phi_c sigma vsh Cn scheme f = Raise ValueError.
Proof.
  intros N E. unfold QI_cement_diag_plot. rewrite E. cbn [call QI_init q_phi q_Vp]. unfold mpl_scatter.
  destruct (Nat.eqb_spec (length por) (length Vp)); [contradiction|reflexivity].
Qed.
Print Assumptions C71_sample_mismatch_raises.
(** [cement_diag_plot] is [cst_plot] with one mark per sample on top, coloured by the cement estimate. *)
Theorem C71_diag_figure m Vp por kw vcem Dqz Kqz Gqz Dsh Ksh Gsh Dc Kc Gc Db Kb b bs phi_c sigma vsh Cn scheme f fig :
  length por = length Vp -> length por = length vcem ->
  QI_cst_plot m Dqz Kqz Gqz Dsh Ksh Gsh Dc Kc Gc Db Kb b bs phi_c sigma vsh Cn scheme f = Ret fig ->
  QI_cement_diag_plot m (QI_init Vp por kw) vcem Dqz Kqz Gqz Dsh Ksh Gsh Dc Kc Gc Db Kb b bs phi_c sigma vsh Cn scheme f = Ret (fig ++ [Points por Vp vcem]).
Proof.
  intros L1 L2 E. unfold QI_cement_diag_plot. rewrite E. cbn [call QI_init q_phi q_Vp]. rewrite scatter_ok by assumption. reflexivity.
Qed.
Print Assumptions C71_diag_figure.
(** [kde_plot]: for a density estimate (rows along porosity) with positive maximum M, the map shows at (porosity i, velocity j) the
    estimate divided by M, blanked below 1e-4. All values are 0 or in [1e-4, 1], and 1 is reached. *)
Theorem C71_kde_figure kde2d Vp por kw vels data (D : list (list R)) gx gy M n cmap phi v1 v2 v3 :
  (vels = "Vp"%string /\ data = Vp \/ vels = "Vs"%string /\ kw_get "Vs" kw = Some data) ->
  kde2d por data n = Ret (map (map Fin) D, gx, gy) -> (forall row, In row D -> length row = length gy) ->
  In M (concat D) -> (forall d, In d (concat D) -> 0 <= d <= M) -> 0 < M ->
  length phi = length v1 -> length phi = length v2 -> length phi = length v3 -> exists z,
  QI_kde_plot kde2d (QI_init Vp por kw) phi v1 v2 v3 cmap vels n =
    Ret [Curve phi v3; Curve phi v1; Curve phi v2; Shade gx gy (map (map Fin) z) "cmap_kde"; Contour gx gy (map (map Fin) z)] /\
  length z = length gy /\ (forall line, In line z -> length line = length D) /\
  (forall i j row line, nth_error D i = Some row -> nth_error z j = Some line -> nth_error line i = Some (shown M (nth j row 0))) /\
  (forall x, In x (concat z) -> x = 0 \/ 1e-4 <= x <= 1) /\ In 1 (concat z).
Proof.
  intros Hd Ek Hl I B P L1 L2 L3. exists (map (fun j => map (fun row => shown M (nth j row 0)) D) (seq 0 (length gy))).
  assert (ES : shown M M = 1) by (unfold shown; destruct (Rlt_dec (M / M) (1/10000)) as [L|]; replace (M / M) with 1 in * by (field; lra); lra).
  assert (X : call (kde2d por data n) (fun q => let '(density, gx, gy) := q in
      call! density := QI_normalize2 density in call! density := oseq (oseq QI_cut) density in
      let z := np_T (length gy) density in Ret [Curve phi v3; Curve phi v1; Curve phi v2; Shade gx gy z "cmap_kde"; Contour gx gy z]) =
    Ret [Curve phi v3; Curve phi v1; Curve phi v2; Shade gx gy (map (map Fin) (map (fun j => map (fun row => shown M (nth j row 0)) D) (seq 0 (length gy)))) "cmap_kde";
         Contour gx gy (map (map Fin) (map (fun j => map (fun row => shown M (nth j row 0)) D) (seq 0 (length gy))))]).
  { rewrite Ek. cbn [call]. rewrite (norm2_fin D M I) by (try (intros y Hy; apply B in Hy); lra). cbn [call]. rewrite cut_fin. cbn [call]. cbv zeta.
    rewrite T_map by exact Hl. rewrite map_map.
    replace (map (fun x => map Fin (map (fun row => shown M (nth x row 0)) D)) (seq 0 (length gy))) with (map (fun j => map (fun row => Fin (shown M (nth j row 0))) D) (seq 0 (length gy))); [reflexivity|].
    apply map_ext. intros j. rewrite map_map. reflexivity. }
  split; [|split; [|split; [|split; [|split]]]].
  - unfold QI_kde_plot. rewrite !plot_ok by assumption. cbn [call]. cbv zeta.
    destruct Hd as [[-> ->]|[-> E]]; cbn [String.eqb Ascii.eqb Bool.eqb QI_init q_phi q_Vp q_Vs]; [exact X|rewrite E; exact X].
  - rewrite map_length, seq_length. reflexivity.
  - intros line Hli. apply in_map_iff in Hli as (j & <- & _). apply map_length.
  - intros i j row line Hi Hj. assert (J : (j < length gy)%nat).
    { rewrite <- (seq_length (length gy) 0), <- (map_length (fun j => map (fun row => shown M (nth j row 0)) D)). apply nth_error_Some. congruence. }
    erewrite map_nth_error in Hj by (rewrite (nth_error_nth' _ 0%nat); [reflexivity|rewrite seq_length; exact J]). rewrite seq_nth in Hj by exact J. injection Hj as <-.
    cbn [Nat.add]. apply (map_nth_error (fun row => shown M (nth j row 0))). exact Hi.
  - intros x Hx. apply in_concat in Hx as (line & Hli & Hx). apply in_map_iff in Hli as (j & <- & Hj). apply in_seq in Hj. apply in_map_iff in Hx as (row & <- & Hr).
    assert (Id : In (nth j row 0) (concat D)) by (apply in_concat; exists row; split; [exact Hr|apply nth_In; rewrite Hl by exact Hr; lia]). apply B in Id.
    unfold shown. destruct (Rlt_dec (nth j row 0 / M) (1/10000)); [left; reflexivity|right]. split; [lra|]. apply div_le_iff; lra.
  - apply in_concat in I as (row & Hr & Im). apply (In_nth _ _ 0) in Im as (j & Hj & Em). rewrite Hl in Hj by exact Hr. apply in_concat.
    exists (map (fun row => shown M (nth j row 0)) D). split.
    + apply (in_map (fun j => map (fun row => shown M (nth j row 0)) D)). apply in_seq. lia.
    + apply in_map_iff. exists row. split; [rewrite Em; exact ES|exact Hr].
Qed.
Print Assumptions C71_kde_figure.
(** Refuted: the colour map is a choice. Two calls that differ in it draw the same figure; and a velocity name other than "Vp" and "Vs" draws
    the bounds without any data instead of being refused. *)
Theorem C71_kde_options_refuted kde2d self phi v1 v2 v3 cmap vels n :
  (forall cmap', QI_kde_plot kde2d self phi v1 v2 v3 cmap' vels n = QI_kde_plot kde2d self phi v1 v2 v3 cmap vels n) /\
  (vels <> "Vp"%string -> vels <> "Vs"%string -> length phi = length v1 -> length phi = length v2 -> length phi = length v3 ->
   QI_kde_plot kde2d self phi v1 v2 v3 cmap vels n = Ret [Curve phi v3; Curve phi v1; Curve phi v2]).
Proof.
  split; [reflexivity|]. intros N1 N2 L1 L2 L3. unfold QI_kde_plot. rewrite !plot_ok by assumption. cbn [call]. cbv zeta.
  destruct (String.eqb_spec vels "Vp"); [contradiction|]. destruct (String.eqb_spec vels "Vs"); [contradiction|]. reflexivity.
Qed.
Print Assumptions C71_kde_options_refuted.
Example C71_kde_nonvacuous : let D := [[0; 2]; [1; 4]] in (forall row, In row D -> length row = 2%nat) /\ In 4 (concat D) /\ (forall d, In d (concat D) -> 0 <= d <= 4).
Proof.
  cbn. split; [intros row [<-|[<-|[]]]; reflexivity|]. split; [auto|]. intros d [<-|[<-|[<-|[<-|[]]]]]; lra.
Qed.

(** ** C72: cement estimates on the object *)
(** With as many velocities as porosities the estimates are those of the pairs; the keywords of the object do not matter. *)
Theorem C72_estimate_pairs logs kw seeds sl Kqz Gqz Ksh Gsh phi_c Cn Kc Gc Db Kb scheme vsh Dsh Dqz Dc : seeds <> [] ->
  QI_obj_estimate_cem (QI_init (map snd logs) (map fst logs) kw) seeds sl Kqz Gqz Ksh Gsh phi_c Cn Kc Gc Db Kb scheme vsh Dsh Dqz Dc =
  QI_estimate_cem logs seeds sl Kqz Gqz Ksh Gsh phi_c Cn Kc Gc Db Kb scheme vsh Dsh Dqz Dc.
Proof.
  intros Hs. unfold QI_obj_estimate_cem, QI_estimate_cem. cbn [QI_init q_phi q_Vp]. rewrite oseq_maps.
  destruct (oseq _ logs) as [rows| |] eqn:E; cbn [call]; try reflexivity. apply oseq_inv, Forall2_len in E.
  destruct seeds as [|s0 seeds]; [contradiction|]. rewrite fill_total by (rewrite map_length; lia). rewrite map_length, E, Nat.sub_diag. cbn [repeat].
  destruct (oseq _ (combine _ rows)); cbn [call]; try reflexivity. rewrite app_nil_r. reflexivity.
Qed.
Print Assumptions C72_estimate_pairs.
(** Fewer velocities than porosities: the estimates of the pairs that exist, then NaN. *)
Theorem C72_fewer_velocities logs more kw seeds sl Kqz Gqz Ksh Gsh phi_c Cn Kc Gc Db Kb scheme vsh Dsh Dqz Dc out : seeds <> [] ->
  (forall p, In p more -> exists vs, oseq (fun i => QI_cal_v_const Dqz Kqz Gqz Dsh Ksh Gsh Dc Kc Gc Db Kb (phi_c - i)%fl phi_c vsh p scheme) seeds = Ret vs) ->
  QI_estimate_cem logs seeds sl Kqz Gqz Ksh Gsh phi_c Cn Kc Gc Db Kb scheme vsh Dsh Dqz Dc = Ret out ->
  QI_obj_estimate_cem (QI_init (map snd logs) (map fst logs ++ more) kw) seeds sl Kqz Gqz Ksh Gsh phi_c Cn Kc Gc Db Kb scheme vsh Dsh Dqz Dc =
  Ret (out ++ repeat NaN (length more)).
Proof.
  intros Hs HM E. unfold QI_obj_estimate_cem, QI_estimate_cem in *. cbn [QI_init q_phi q_Vp].
  apply call_inv in E as (rows & E1 & E2). rewrite <- (oseq_maps (fun p => call! vs := oseq (fun i => QI_cal_v_const Dqz Kqz Gqz Dsh Ksh Gsh Dc Kc Gc Db Kb (phi_c - i)%fl phi_c vsh p scheme) seeds in Ret (map fst vs)) fst) in E1.
  destruct (oseq_total (fun p => call! vs := oseq (fun i => QI_cal_v_const Dqz Kqz Gqz Dsh Ksh Gsh Dc Kc Gc Db Kb (phi_c - i)%fl phi_c vsh p scheme) seeds in Ret (map fst vs)) more) as (rows' & E3).
  { intros p Hp. destruct (HM p Hp) as (vs & ->). cbn [call]. eauto. }
  assert (EA : forall l1 l2 r1 r2, oseq (fun p => call! vs := oseq (fun i => QI_cal_v_const Dqz Kqz Gqz Dsh Ksh Gsh Dc Kc Gc Db Kb (phi_c - i)%fl phi_c vsh p scheme) seeds in Ret (map fst vs)) l1 = Ret r1 ->
    oseq (fun p => call! vs := oseq (fun i => QI_cal_v_const Dqz Kqz Gqz Dsh Ksh Gsh Dc Kc Gc Db Kb (phi_c - i)%fl phi_c vsh p scheme) seeds in Ret (map fst vs)) l2 = Ret r2 ->
    oseq (fun p => call! vs := oseq (fun i => QI_cal_v_const Dqz Kqz Gqz Dsh Ksh Gsh Dc Kc Gc Db Kb (phi_c - i)%fl phi_c vsh p scheme) seeds in Ret (map fst vs)) (l1 ++ l2) = Ret (r1 ++ r2)) by (intros; apply oseq_app; assumption).
  rewrite (EA _ _ _ _ E1 E3). cbn [call]. apply oseq_inv, Forall2_len in E1, E3. rewrite map_length in E1.
  destruct seeds as [|s0 seeds]; [contradiction|]. rewrite fill_total by (rewrite map_length, app_length; lia).
  rewrite combine_app_short by (rewrite map_length; exact E1). rewrite E2. cbn [call]. do 3 f_equal. rewrite map_length, app_length, E3. lia.
Qed.
Print Assumptions C72_fewer_velocities.
(** More velocities than porosities: an IndexError, once the samples with a porosity have been read. *)
Theorem C72_more_velocities_raises logs v more kw seeds sl Kqz Gqz Ksh Gsh phi_c Cn Kc Gc Db Kb scheme vsh Dsh Dqz Dc out : seeds <> [] ->
  QI_estimate_cem logs seeds sl Kqz Gqz Ksh Gsh phi_c Cn Kc Gc Db Kb scheme vsh Dsh Dqz Dc = Ret out ->
  QI_obj_estimate_cem (QI_init (map snd logs ++ v :: more) (map fst logs) kw) seeds sl Kqz Gqz Ksh Gsh phi_c Cn Kc Gc Db Kb scheme vsh Dsh Dqz Dc = Raise IndexError.
Proof.
  intros Hs E. rewrite <- (C72_estimate_pairs logs kw) in E by exact Hs. unfold QI_obj_estimate_cem in *. cbn [QI_init q_phi q_Vp] in *.
  apply call_inv in E as (rows & E1 & E2). rewrite E1. cbn [call]. apply oseq_inv, Forall2_len in E1. rewrite map_length in E1.
  assert (L : length rows = length (map snd logs)) by (rewrite map_length; auto). destruct seeds as [|s0 seeds]; [contradiction|].
  eapply fill_long; eauto.
Qed.
Print Assumptions C72_more_velocities_raises.
Example C72_nonvacuous : exists vp,
  QI_obj_estimate_cem (QI_init [Fin vp] [Fin 0.3] []) [Fin 0; Fin 0.1] false (Fin 2) (Fin 3) (Fin 2) (Fin 3) (Fin 0.4) (Fin 9) (Fin (2 * PI)) (Fin (3 * PI)) (Fin 1) (Fin 1) 1 (Fin 0.2) (Fin 2.65) (Fin 2.65) (Fin 2.65)
  = Ret [Fin 0.05].
Proof.
  destruct C63_nonvacuous as (vp & E). exists vp. rewrite <- E. apply (C72_estimate_pairs [(Fin 0.3, Fin vp)]). discriminate.
Qed.
Example C71_cst_nonvacuous : exists sigma Kf Gf, let Cn := 20 - 34 * 0.4 + 14 * 0.4^2 in
  GM_contactcement NumPy (Fin (hill [0.2; 1 - 0.2] [2; 2])) (Fin (hill [0.2; 1 - 0.2] [3; 3])) (Fin (2 * PI)) (Fin (3 * PI)) (Fin 0.3) (Fin 0.4) (Fin Cn) 1 = Ret (Fin Kf, Fin Gf) /\
  0 < Kf < hill [0.2; 1 - 0.2] [2; 2] /\ 0 < Gf < hill [0.2; 1 - 0.2] [3; 3] /\ 0 < sigma /\ 0 < 2 * PI /\ 0 < (3 * PI) /\ 0 < Cn /\ 0 < 1 < hill [0.2; 1 - 0.2] [2; 2].
Proof.
  destruct C63_line_nonvacuous as (Kf & Gf & E & B1 & B2). assert (P := ex_PI).
  exists 0.1, Kf, Gf. cbv zeta. split; [exact E|]. split; [exact B1|]. split; [exact B2|]. split; [lra|].
  split; [lra|]. split; [lra|]. split; [lra|].
  unfold hill; cbn [wsum map]; lra.
Qed.
