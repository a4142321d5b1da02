(** * Property theorems about Emp.py (C59-C61). *)
From Coq Require Import Lra Lia Sorting.Sorted Permutation.
From Verif Require Import Fl M_Emp Spec Spec5 RealLemmas L_Emp.
Open Scope R_scope.

(** ** C59: scalar trends. *)
(** Krief: both moduli are the grain moduli times one factor c, with c = 1 at zero porosity, c falling with porosity,
    0 < c <= (1-phi)^3; the rock keeps the Poisson ratio of the grain. *)
Theorem C59_krief m : exists c : R -> R, c 0 = 1 /\
  (forall phi, 0 <= phi < 1 -> 0 < c phi <= (1 - phi)^3 /\ (1 - phi) * ln (c phi) = 3 * ln (1 - phi)) /\
  (forall phi phi', 0 <= phi -> phi < phi' -> phi' < 1 -> c phi' < c phi) /\
  forall phi Kg Gg, 0 <= phi < 1 ->
    Emp_krief m (Fin phi) (Fin Kg) (Fin Gg) = Ret (Fin (c phi * (Kg - 2 / 3 * Gg)), Fin (c phi * Gg), Fin (c phi * Kg)).
Proof.
  exists (fun phi => krief_c (1 - phi)). split; [rewrite Rminus_0_r; apply krief_1|]. split; [|split].
  - intros phi H. split; [split; [apply krief_pos|apply krief_le3; lra]|].
    unfold krief_c, Rpower. rewrite ln_exp. field. lra.
  - intros phi phi' H0 L H1. apply krief_mono; lra.
  - intros phi Kg Gg H. rewrite krief_fin by lra. reteq. field.
Qed.
Theorem C59_krief_no_solid_raises phi Kg Gg : phi = 1 -> Emp_krief PyFloat (Fin phi) (Fin Kg) (Fin Gg) = Raise ZeroDivisionError.
Proof. intros ->. unfold Emp_krief. repeat fl1. rewrite Rminus_diag_eq by reflexivity. rewrite fdiv_zero_py_fin. reflexivity. Qed.
(** The S velocity is half the sum of the arithmetic and harmonic averages of the sand and shale lines. It lies between
    the two lines, below Vp, falls with shale content and rises with Vp. *)
Theorem C59_esti_VS m Vp v : 1127 < Vp -> 0 <= v <= 1 -> exists vs,
  Emp_esti_VS m (Fin Vp) (Fin v) = Ret (Fin vs) /\
  vs = 500 * ((1 - v) * gc_sand (Vp / 1000) + v * gc_shale (Vp / 1000) + 1 / ((1 - v) / gc_sand (Vp / 1000) + v / gc_shale (Vp / 1000))) /\
  0 < 1000 * gc_shale (Vp / 1000) <= vs /\ vs <= 1000 * gc_sand (Vp / 1000) < Vp /\
  (v = 0 -> vs = 1000 * gc_sand (Vp / 1000)) /\ (v = 1 -> vs = 1000 * gc_shale (Vp / 1000)) /\
  (forall v' vs', v < v' <= 1 -> Emp_esti_VS m (Fin Vp) (Fin v') = Ret (Fin vs') -> vs' < vs) /\
  (forall Vp' vs', Vp < Vp' -> Emp_esti_VS m (Fin Vp') (Fin v) = Ret (Fin vs') -> vs < vs').
Proof.
  intros H Hv. destruct (gc_lines (Vp / 1000)) as (L1 & L2 & L3); [lra|].
  assert (B := gc_mix_bnd _ _ v L1 L2 Hv). exists (1000 * gc_mix (gc_sand (Vp / 1000)) (gc_shale (Vp / 1000)) v).
  split; [apply esti_fin; auto|]. split; [unfold gc_mix; lra|]. split; [lra|]. split; [lra|].
  split; [|split; [|split]].
  - intros ->. unfold gc_mix. replace (1 / ((1 - 0) / gc_sand (Vp / 1000) + 0 / gc_shale (Vp / 1000))) with (gc_sand (Vp / 1000)) by (field; lra). lra.
  - intros ->. unfold gc_mix. replace (1 / ((1 - 1) / gc_sand (Vp / 1000) + 1 / gc_shale (Vp / 1000))) with (gc_shale (Vp / 1000)) by (field; lra). lra.
  - intros v' vs' Hv'. rewrite esti_fin by lra. intros [= <-]. assert (X := gc_mix_v _ _ v v' L1 L2 ltac:(lra) ltac:(lra) ltac:(lra)). lra.
  - intros Vp' vs' HV. rewrite esti_fin by lra. intros [= <-]. destruct (gc_lines (Vp' / 1000)) as (L1' & L2' & _); [lra|].
    assert (X := gc_mix_ab (gc_sand (Vp / 1000)) (gc_shale (Vp / 1000)) (gc_sand (Vp' / 1000)) (gc_shale (Vp' / 1000)) v L1 L2 L2' ltac:(unfold gc_sand; lra) ltac:(unfold gc_shale; lra) Hv). lra.
Qed.
(** Han: both velocities fall with porosity and clay, and Vs < Vp while porosity and clay fit in the rock. *)
Theorem C59_han phi C : exists vp vs, Emp_han (Fin phi) (Fin C) = Ret (Fin vp, Fin vs) /\
  vp = 5590 - 6930 * phi - 2810 * C /\ vs = 3520 - 4910 * phi - 1890 * C /\
  (0 <= phi -> 0 <= C -> phi + C <= 1 -> vs < vp) /\
  (0 <= phi -> 0 <= C -> phi + C <= 0.7 -> 0 < vs).
Proof. do 2 eexists. split; [unfold Emp_han; repeat fl1; reflexivity|]. repeat split; intros; lra. Qed.
(** It cannot be used up to the critical suspension: pure fluid would get a negative S velocity. *)
Theorem C59_han_positive_refuted phi vp vs : 0.72 <= phi -> Emp_han (Fin phi) (Fin 0) = Ret (Fin vp, Fin vs) -> vs < 0.
Proof. intros H. unfold Emp_han. repeat fl1. intros [= _ <-]. lra. Qed.
(** Depth trends in metres. *)
Theorem C59_depth_lines m z :
  Emp_Scherbaum (Fin z) = Ret (Fin (2325 + 0.51 * z)) /\
  Emp_Storvoll m (Fin z) = Ret (Fin (2600 + z / 1.76)) /\
  Emp_hjelstuen m (Fin z) = Ret (Fin (1870 + 0.55 * z)) /\
  Emp_ramm_porosity m (Fin z) true = Ret (Fin (0.464 - 0.000085 * z)) /\
  Emp_ramm_porosity m (Fin z) false = Ret (Fin (0.427 - 0.000069 * z)) /\
  Emp_ehrenberg m (Fin z) = Ret (Fin (0.4802422 - 0.092200747 * (z / 1000))).
Proof.
  unfold Emp_Scherbaum, Emp_Storvoll, Emp_hjelstuen, Emp_ramm_porosity, Emp_ehrenberg.
  repeat split; repeat (first [fl1 | rewrite fdiv_fin by lra]; cbv beta zeta); reteq; lra.
Qed.
(** The two porosity trends are fractions exactly while the sediment is not deeper than their zero. *)
Theorem C59_ramm_range m z p q : Emp_ramm_porosity m (Fin z) true = Ret (Fin p) -> Emp_ramm_porosity m (Fin z) false = Ret (Fin q) ->
  (0 <= z -> p <= 0.464 /\ q <= 0.427) /\ (0 <= p <-> z <= 46400 / 8.5) /\ (0 <= q <-> z <= 42700 / 6.9) /\ (p <= q <-> 2312.5 <= z).
Proof.
  destruct (C59_depth_lines m z) as (_ & _ & _ & -> & -> & _). intros [= <-] [= <-].
  assert (A : 8.5 * (46400 / 8.5) = 46400) by lra. assert (B : 6.9 * (42700 / 6.9) = 42700) by lra. repeat split; intros; lra.
Qed.
(** Hillis: the velocity grows with depth (metres) down to 135900/20.22 m, where the transit time vanishes: Python floats
    raise; below it the velocity is negative. *)
Theorem C59_Hillis m z : z <> 135900 / 20.22 -> exists v, Emp_Hillis m (Fin z) = Ret (Fin v) /\ v * (135.9 - 20.22 * z / 1000) = 304800 /\
  (z < 135900 / 20.22 -> 0 < v /\ forall z' v', z < z' < 135900 / 20.22 -> Emp_Hillis m (Fin z') = Ret (Fin v') -> v < v') /\
  (135900 / 20.22 < z -> v < 0).
Proof.
  intros H. assert (N : 1359/10 - 2022/100 * z / 1000 <> 0) by lra.
  exists (304800 / (135.9 - 20.22 * z / 1000)).
  assert (E : forall z, 1359/10 - 2022/100 * z / 1000 <> 0 -> Emp_Hillis m (Fin z) = Ret (Fin (304800 / (135.9 - 20.22 * z / 1000)))).
  { intros y Ny. unfold Emp_Hillis. repeat (first [fl1 | rewrite (fdiv_fin m _ 1000) by lra | rewrite fdiv_fin by exact Ny]; cbv beta zeta). reteq. replace (135.9 - 20.22 * y / 1000) with (1359/10 - 2022/100 * y / 1000) by lra. f_equal. lra. }
  split; [apply E; exact N|]. split; [field; lra|]. split.
  - intros L. split; [apply Rdiv_lt_0_compat; lra|]. intros z' v' L'. rewrite E by lra. intros [= <-]. unfold Rdiv at 1 3. apply Rmult_lt_compat_l; [lra|]. apply Rinv_lt_contravar; [apply Rmult_lt_0_compat|]; lra.
  - intros L. apply (Rmult_lt_reg_r (20.22 * z / 1000 - 135.9)); [lra|]. replace (304800 / (135.9 - 20.22 * z / 1000) * (20.22 * z / 1000 - 135.9)) with (- 304800) by (field; lra). lra.
Qed.
Theorem C59_Hillis_pole : Emp_Hillis PyFloat (Fin (135900 / 20.22)) = Raise ZeroDivisionError /\ Emp_Hillis NumPy (Fin (135900 / 20.22)) = Ret Inf.
Proof.
  assert (E : 1359/10 - 2022/100 * (135900 / 20.22) / 1000 = 0) by lra.
  unfold Emp_Hillis. split.
  - repeat (first [fl1 | rewrite (fdiv_fin PyFloat _ 1000) by lra]; cbv beta zeta). rewrite E, fdiv_zero_py_fin. reflexivity.
  - repeat (first [fl1 | rewrite (fdiv_fin NumPy _ 1000) by lra]; cbv beta zeta). rewrite E, fdiv_zero_np by lra. reflexivity.
Qed.
(** The documented unit is kilometres for Hillis and Ehrenberg; the code takes metres. For any sandstone depth given in
    kilometres as documented the result is not the trend. *)
Theorem C59_documented_units_refuted m km v p : 0.1 <= km <= 6 ->
  Emp_Hillis m (Fin km) = Ret (Fin v) -> Emp_ehrenberg m (Fin km) = Ret (Fin p) ->
  v <> 304.8 / (135.9 - 20.22 * km) /\ v < 304800 / (135.9 - 20.22 * km) /\ 0.4802422 - 0.092200747 * km < p.
Proof.
  intros H Hv. destruct (C59_depth_lines m km) as (_ & _ & _ & _ & _ & ->). intros [= <-].
  destruct (C59_Hillis m km ltac:(lra)) as (v' & E & Ev & _). rewrite E in Hv. injection Hv as ->. split; [|split; [|lra]].
  - intros Q. rewrite Q in Ev. assert (P : 0 < 135.9 - 20.22 * km) by lra.
    assert (X : 304.8 / (135.9 - 20.22 * km) <= 304.8 / 10). { unfold Rdiv. apply Rmult_le_compat_l; [lra|]. apply Rinv_le_contravar; lra. }
    assert (0 < 304.8 / (135.9 - 20.22 * km)) by (apply Rdiv_lt_0_compat; lra). nra.
  - apply lt_div_iff; [lra|]. assert (0 < v) by nra. nra.
Qed.
(** Sclater-Christie inverts porosity = 0.49 exp(-z/3.7). *)
Theorem C59_Sclater m :
  (forall z, Emp_Sclater m (Fin (0.49 * exp (- z / 3.7))) = Ret (Fin z)) /\
  (forall phi, 0 < phi -> exists z, Emp_Sclater m (Fin phi) = Ret (Fin z) /\ phi = 0.49 * exp (- z / 3.7)) /\
  Emp_Sclater PyFloat (Fin 0) = Raise ZeroDivisionError.
Proof.
  assert (E : forall phi, 0 < phi -> Emp_Sclater m (Fin phi) = Ret (Fin (3.7 * ln (0.49 / phi)))).
  { intros phi H. unfold Emp_Sclater. rewrite fdiv_fin by lra. rewrite flog_fin by (apply Rdiv_lt_0_compat; lra). repeat fl1. reflexivity. }
  split; [|split].
  - intros z. assert (P : 0 < exp (- z / 3.7)) by apply exp_pos. rewrite E by lra. reteq.
    replace (0.49 / (0.49 * exp (- z / 3.7))) with (exp (z / 3.7)). { rewrite ln_exp. lra. }
    apply (Rmult_eq_reg_r (exp (- z / 3.7))); [|lra]. rewrite <- exp_plus. replace (z / 3.7 + - z / 3.7) with 0 by lra. rewrite exp_0. change 0.49 with (49/100). field. lra.
  - intros phi H. exists (3.7 * ln (0.49 / phi)). split; [apply E; auto|]. replace (- (3.7 * ln (0.49 / phi)) / 3.7) with (- ln (0.49 / phi)) by lra.
    rewrite exp_Ropp, exp_ln by (apply Rdiv_lt_0_compat; lra). change 0.49 with (49/100). field. lra.
  - unfold Emp_Sclater. rewrite fdiv_zero_py_fin. reflexivity.
Qed.
(** Murphy's coordination number: 20 for no pores, 0 for no grains, falling in between. *)
Theorem C59_Cp phi : exists n, Emp_Cp (Fin phi) = Ret (Fin n) /\ n = (1 - phi) * (20 - 14 * phi) /\
  (0 <= phi -> phi < 1 -> 0 < n <= 20 /\ forall phi' n', phi < phi' <= 1 -> Emp_Cp (Fin phi') = Ret (Fin n') -> n' < n) /\
  (phi = 0.4 -> Rabs (n - 8.6) <= 0.05).
Proof.
  assert (E : forall p, Emp_Cp (Fin p) = Ret (Fin (20 - 34 * p + 14 * p^2))) by (intros; unfold Emp_Cp; repeat fl1; reflexivity).
  exists (20 - 34 * phi + 14 * phi^2). split; [apply E|]. split; [ring|]. split.
  - intros H0 H1. split; [nra|]. intros phi' n' H. rewrite E. intros [= <-]. nra.
  - intros ->. apply Rabs_le. lra.
Qed.

(** ** C60: trends computed segment by segment. *)
(** One value per depth, in the order of the input, exactly when every depth down to 2630 m comes before every deeper one;
    in any case the values are a rearrangement of the right ones. *)
Theorem C60_yu_order zs :
  exists vs, Emp_yu_segment_trend (map Fin zs) = Ret (map Fin vs) /\ Permutation vs (map yu_trend zs) /\
  (vs = map yu_trend zs <-> exists s d, zs = s ++ d /\ Forall (fun z => z <= 2630) s /\ Forall (fun z => 2630 < z) d).
Proof.
  exists (map yu_trend (yu_order zs)). split; [apply yu_eval|]. split; [apply Permutation_map, yu_perm|]. split.
  - intros E. apply (map_inj _ yu_inj) in E. exists (filter (fun z => Rleb z 2630) zs), (filter (fun z => Rltb 2630 z) zs). split; [symmetry; exact E|].
    split; apply Forall_forall; intros z I; apply filter_In in I; [apply Rleb_spec|apply Rltb_spec]; apply I.
  - intros (s & d & -> & Hs & Hd). rewrite Forall_forall in *. f_equal. unfold yu_order.
    rewrite (filter_ext (fun z => Rltb 2630 z) (fun z => negb (Rleb z 2630))) by (intros; apply Rltb_negb).
    destruct (split_by (fun z => Rleb z 2630) s d) as (E1 & E2).
    + intros x I. apply Rleb_spec, Hs, I.
    + intros x I. specialize (Hd x I). destruct (Rleb x 2630) eqn:Q; [apply Rleb_spec in Q; lra|reflexivity].
    + rewrite E1, E2. reflexivity.
Qed.
Theorem C60_yu_sorted zs : StronglySorted Rle zs -> Emp_yu_segment_trend (map Fin zs) = Ret (map Fin (map yu_trend zs)).
Proof. intros S. rewrite yu_eval. unfold yu_order. rewrite sorted_split by exact S. reflexivity. Qed.
Theorem C60_yu_increasing z z' : z < z' -> yu_trend z < yu_trend z'.
Proof. apply yu_incr. Qed.
(** A deep sample before a shallow one: the two velocities come out exchanged. *)
Theorem C60_yu_order_refuted deep shallow : shallow <= 2630 < deep ->
  Emp_yu_segment_trend [Fin deep; Fin shallow] = Ret [Fin (yu_trend shallow); Fin (yu_trend deep)] /\
  yu_trend shallow < yu_trend deep.
Proof.
  intros H. split; [|apply yu_incr; lra]. change [Fin deep; Fin shallow] with (map Fin [deep; shallow]). rewrite yu_eval. unfold yu_order. cbn [filter].
  replace (Rleb deep 2630) with false by (symmetry; unfold Rleb; destruct (Rle_dec deep 2630); [lra|auto]).
  replace (Rleb shallow 2630) with true by (symmetry; apply Rleb_spec; lra). replace (Rltb 2630 deep) with true by (symmetry; apply Rltb_spec; lra).
  replace (Rltb 2630 shallow) with false by (symmetry; unfold Rltb; destruct (Rlt_dec 2630 shallow); [lra|auto]). reflexivity.
Qed.
(** A missing depth (NaN) is dropped by both trends, so that later velocities move to other depths. *)
Theorem C60_nan_dropped_refuted a b :
  Emp_yu_segment_trend (map Fin a ++ NaN :: map Fin b) = Emp_yu_segment_trend (map Fin (a ++ b)) /\
  Emp_Japsen (map Fin a ++ NaN :: map Fin b) = Emp_Japsen (map Fin (a ++ b)).
Proof.
  assert (X : forall p q, (forall z, p (Fin z) = Some (q z)) -> p NaN = Some false -> fmask p (map Fin a ++ NaN :: map Fin b) = fmask p (map Fin (a ++ b))).
  { intros p q H N. rewrite map_app. rewrite (fmask_app p (map Fin a) (map Fin b) (map Fin (filter q a)) (map Fin (filter q b))) by (apply fmask_fin; auto).
    apply fmask_app; [apply fmask_fin; auto|]. cbn [fmask]. rewrite N, (fmask_fin p q b H). reflexivity. }
  split; [unfold Emp_yu_segment_trend|unfold Emp_Japsen]; repeat (erewrite X; [|intros; reflexivity|reflexivity]); reflexivity.
Qed.
(** Japsen: depths from 5300 m on disappear; the others are kept, in order if the input is sorted. *)
Theorem C60_Japsen zs : exists vs, Emp_Japsen (map Fin zs) = Ret (map Fin vs) /\
  Permutation vs (map japsen_trend (filter (fun z => Rltb z 5300) zs)) /\
  (StronglySorted Rle zs -> vs = map japsen_trend (filter (fun z => Rltb z 5300) zs)) /\
  (StronglySorted Rle zs -> Forall (fun z => z < 5300) zs -> vs = map japsen_trend zs).
Proof.
  exists (map japsen_trend (japsen_order zs)). split; [apply japsen_eval|]. split; [apply Permutation_map, japsen_perm|].
  split; intros S; rewrite (japsen_sorted zs S); [reflexivity|]. intros F. rewrite Forall_forall in F. rewrite filter_all; [reflexivity|]. intros x I. apply Rltb_spec. auto.
Qed.
Theorem C60_Japsen_deep_refuted zs : Forall (fun z => 5300 <= z) zs -> Emp_Japsen (map Fin zs) = Ret [].
Proof.
  intros F. rewrite Forall_forall in F. destruct (C60_Japsen zs) as (vs & -> & P & _). rewrite filter_none in P.
  - apply Permutation_sym, Permutation_nil in P. rewrite P. reflexivity.
  - intros x I. specialize (F x I). destruct (Rltb x 5300) eqn:Q; [apply Rltb_spec in Q; lra|reflexivity].
Qed.
Theorem C60_Japsen_shape :
  (forall z z', z < z' -> japsen_trend z < japsen_trend z') /\
  (-400 + 2 * 2000 = 2600 + 0.5 * 2000 /\ 2600 + 0.5 * 3500 = 3475 + 0.25 * 3500) /\
  (-400 + 2 * 1393) - (1550 + 0.6 * 1393) = 0.2.
Proof. split; [apply japsen_incr|]. repeat split; lra. Qed.
(** The segmented porosity trend keeps order and length: the smaller of the two curves, falling with depth. *)
Theorem C60_ramm_segment zs : Emp_ramm_porosity_segment (map Fin zs) = Ret (map Fin (map ramm_trend zs)) /\
  (forall z z', z < z' -> ramm_trend z' < ramm_trend z).
Proof. split; [apply ramm_list|apply ramm_decr]. Qed.
(** It returns percent although [ramm_porosity] returns a fraction: for every depth from 0 to 3000 m its values exceed one. *)
Theorem C60_ramm_fraction_refuted m z p q : 0 <= z <= 3000 ->
  Emp_ramm_porosity m (Fin z) true = Ret (Fin p) -> Emp_ramm_porosity_segment [Fin z] = Ret [Fin q] -> p < 1 /\ 1 < q.
Proof.
  intros H. destruct (C59_depth_lines m z) as (_ & _ & _ & -> & _). intros [= <-].
  change [Fin z] with (map Fin [z]). rewrite ramm_list. intros [= <-]. split; [lra|]. unfold ramm_trend. apply Rmin_glb_lt; [|lra].
  assert (E : exp (- 0.00025 * 3000) <= exp (- 0.00025 * z)). { destruct (Req_dec z 3000) as [-> | N]; [lra|left; apply exp_increasing; lra]. }
  assert (F := exp_ineq1_le (- 0.00025 * 3000)). lra.
Qed.
Example C60_sorted_case : StronglySorted Rle [1000; 2000; 3000].
Proof. repeat constructor; lra. Qed.

(** ** C61: St Peter sandstone. *)
Theorem C61_StPeter P :
  Emp_StPeter (Fin P) 1 = Ret (Fin (1000 * pressure_law 4.21 0.187 0.746 24 P), Fin (1000 * pressure_law 2.58 0.160 0.781 20 P)) /\
  Emp_StPeter (Fin P) 2 = Ret (Fin (1000 * pressure_law 4.55 0.298 0.8 19 P), Fin (1000 * pressure_law 2.83 0.195 0.741 16 P)).
Proof.
  unfold Emp_StPeter, pressure_law. cbn [Z.eqb Pos.eqb]. split; repeat (first [fl1 | rewrite fexp_fin]; cbv beta zeta); reteq.
  - change (-24) with (- (24)). lra.
  - change (-20) with (- (20)). lra.
  - change (-19) with (- (19)). lra.
  - change (-16) with (- (16)). lra.
Qed.
Theorem C61_other_sample P s : s <> 1%Z -> s <> 2%Z -> Emp_StPeter P s = Raise UnboundLocalError.
Proof. intros H1 H2. unfold Emp_StPeter. apply Z.eqb_neq in H1, H2. rewrite H1, H2. reflexivity. Qed.
Lemma pressure_incr A K B D P P' : 0 < K -> 0 < B -> 0 < D -> P < P' -> pressure_law A K B D P < pressure_law A K B D P'.
Proof. intros. unfold pressure_law. assert (exp (- D * P') < exp (- D * P)) by (apply exp_increasing; nra). nra. Qed.
(** Both samples: velocities grow with pressure, Vs < Vp, and the less porous sample is faster at every pressure. *)
Theorem C61_physical P : 0 <= P -> exists vp1 vs1 vp2 vs2,
  Emp_StPeter (Fin P) 1 = Ret (Fin vp1, Fin vs1) /\ Emp_StPeter (Fin P) 2 = Ret (Fin vp2, Fin vs2) /\
  1700 < vs1 < vp1 /\ 2000 < vs2 < vp2 /\ vp1 < vp2 /\ vs1 < vs2 /\
  (forall P' s vp vs vp' vs', (s = 1 \/ s = 2)%Z -> P < P' -> Emp_StPeter (Fin P) s = Ret (Fin vp, Fin vs) -> Emp_StPeter (Fin P') s = Ret (Fin vp', Fin vs') ->
     vp < vp' /\ vs < vs').
Proof.
  intros HP. destruct (C61_StPeter P) as (E1 & E2). do 4 eexists. split; [exact E1|]. split; [exact E2|].
  assert (X : forall D, 0 < D -> 0 < exp (- D * P) <= 1).
  { intros D HD. split; [apply exp_pos|]. rewrite <- exp_0. destruct (Req_dec P 0) as [-> | N]; [right; f_equal; ring|left; apply exp_increasing; nra]. }
  assert (S : forall D D', 0 < D -> D <= D' -> exp (- D' * P) <= exp (- D * P)).
  { intros D D' HD L. destruct (Rle_lt_or_eq_dec (- D' * P) (- D * P)) as [Q | ->]; [nra|left; apply exp_increasing; auto|lra]. }
  assert (A24 := X 24 ltac:(lra)). assert (A20 := X 20 ltac:(lra)). assert (A19 := X 19 ltac:(lra)). assert (A16 := X 16 ltac:(lra)).
  assert (B1 := S 19 24 ltac:(lra) ltac:(lra)). assert (B2 := S 16 19 ltac:(lra) ltac:(lra)). assert (B3 := S 20 24 ltac:(lra) ltac:(lra)).
  assert (Q1 : (exp (- (19) * P))^2 <= exp (- (24) * P)). { replace ((exp (- (19) * P))^2) with (exp (- (38) * P)) by (replace (- (38) * P) with (- (19) * P + - (19) * P) by ring; rewrite exp_plus; ring). apply S; lra. }
  assert (Q2 : (exp (- (16) * P))^2 <= exp (- (20) * P)). { replace ((exp (- (16) * P))^2) with (exp (- (32) * P)) by (replace (- (32) * P) with (- (16) * P + - (16) * P) by ring; rewrite exp_plus; ring). apply S; lra. }
  unfold pressure_law. change (-24) with (- (24)) in *. change (-20) with (- (20)) in *. change (-19) with (- (19)) in *. change (-16) with (- (16)) in *.
  set (x24 := exp (- (24) * P)) in *. set (x20 := exp (- (20) * P)) in *. set (x19 := exp (- (19) * P)) in *. set (x16 := exp (- (16) * P)) in *.
  split; [lra|]. split; [lra|]. split; [assert (0 <= (x19 - 0.536)^2) by apply pow2_ge_0; nra|]. split; [assert (0 <= (x16 - 0.4744)^2) by apply pow2_ge_0; nra|].
  destruct (C61_StPeter P) as (F1 & F2).
  intros P' s vp vs vp' vs' [-> | ->] L; destruct (C61_StPeter P') as (G1 & G2); [rewrite F1, G1|rewrite F2, G2]; intros [= <- <-] [= <- <-];
    split; apply Rmult_lt_compat_l; try lra; apply pressure_incr; lra.
Qed.

Print Assumptions C59_krief.
Print Assumptions C59_krief_no_solid_raises.
Print Assumptions C59_esti_VS.
Print Assumptions C59_han.
Print Assumptions C59_han_positive_refuted.
Print Assumptions C59_depth_lines.
Print Assumptions C59_ramm_range.
Print Assumptions C59_Hillis.
Print Assumptions C59_Hillis_pole.
Print Assumptions C59_documented_units_refuted.
Print Assumptions C59_Sclater.
Print Assumptions C59_Cp.
Print Assumptions C60_yu_order.
Print Assumptions C60_yu_sorted.
Print Assumptions C60_yu_increasing.
Print Assumptions C60_yu_order_refuted.
Print Assumptions C60_nan_dropped_refuted.
Print Assumptions C60_Japsen.
Print Assumptions C60_Japsen_deep_refuted.
Print Assumptions C60_Japsen_shape.
Print Assumptions C60_ramm_segment.
Print Assumptions C60_ramm_fraction_refuted.
Print Assumptions C61_StPeter.
Print Assumptions C61_other_sample.
Print Assumptions C61_physical.
