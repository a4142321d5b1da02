(** * L_Dem3: adding inclusions in two batches, scaling, full replacement and dry spheres in closed form. *)
From Coquelicot Require Import Coquelicot.
From Verif Require Import Fl RealLemmas M_EM Spec Spec2 Spec12 L_EM5 L_EM6 L_EM8 L_Shape L_Dem.
Open Scope R_scope.

Section Any.
Variables (m : mode) (Ki Gi al : R) (K G K' G' : R -> R).
Hypotheses (HKi : 0 <= Ki) (HGi : 0 <= Gi) (Hal : 0 < al <= 1) (H : dem_traj m Ki Gi al K G K' G').
Lemma dem_restart t1 : 0 <= t1 < 1 -> dem_traj m Ki Gi al (fun u => K (t1 + (1 - t1) * u)) (fun u => G (t1 + (1 - t1) * u)) (fun u => K' (t1 + (1 - t1) * u) * (1 - t1)) (fun u => G' (t1 + (1 - t1) * u) * (1 - t1)).
Proof.
  intros Ht u Hu. assert (Ht' : 0 <= t1 + (1 - t1) * u < 1). { assert (0 <= (1 - t1) * u) by (apply Rmult_le_pos; lra). assert (0 < (1 - t1) * (1 - u)) by (apply Rmult_lt_0_compat; lra). lra. }
  destruct (H _ Ht') as (P1 & P2 & D1 & D2 & _). destruct (dem_rhs m Ki Gi al K G K' G' HKi HGi Hal H _ Ht') as (E1 & E2).
  assert (DL : derivable_pt_lim (fun u => t1 + (1 - t1) * u) u (1 - t1)). { apply is_derive_Reals. evar_last. { auto_derive; [exact I|reflexivity]. } ring. }
  split; [exact P1|]. split; [exact P2|]. split; [exact (derivable_pt_lim_comp _ K u _ _ DL D1)|]. split; [exact (derivable_pt_lim_comp _ G u _ _ DL D2)|].
  rewrite DEM_eval by (auto; lra). set (t := t1 + (1 - t1) * u) in *. replace (1 - t) with ((1 - t1) * (1 - u)) in E1, E2 by (unfold t; ring).
  assert (F : forall x y P, (1 - t1) * (1 - u) * x = y * P -> 1 / (1 - u) * y * P = x * (1 - t1)).
  { intros x y P E. rewrite Rmult_assoc, <- E. field. lra. }
  rewrite (F _ _ _ E1), (F _ _ _ E2). reflexivity.
Qed.
Lemma sph_scale c k g : 0 < c -> 0 < k -> 0 < g -> sphP (c * k) (c * g) (c * Ki) (c * Gi) al = sphP k g Ki Gi al /\ sphQ (c * k) (c * g) (c * Ki) (c * Gi) al = sphQ k g Ki Gi al.
Proof.
  intros Hc Hk Hg. destruct (sph_pq (c * k) (c * g) (c * Ki) (c * Gi) al) as (-> & ->). destruct (sph_pq k g Ki Gi al) as (-> & ->).
  replace (c * Gi / (c * g)) with (Gi / g) by (field; lra). replace (c * Ki / (c * k)) with (Ki / k) by (field; lra). replace (c * g / (c * k + 4/3 * (c * g))) with (g / (k + 4/3*g)) by (field; nra). auto.
Qed.
Lemma dem_scale c : 0 < c -> dem_traj m (c * Ki) (c * Gi) al (fun t => c * K t) (fun t => c * G t) (fun t => c * K' t) (fun t => c * G' t).
Proof.
  intros Hc t Ht. destruct (H t Ht) as (P1 & P2 & D1 & D2 & _). destruct (dem_rhs m Ki Gi al K G K' G' HKi HGi Hal H t Ht) as (E1 & E2).
  split; [nra|]. split; [nra|]. split; [apply (derivable_pt_lim_scal K c t _ D1)|]. split; [apply (derivable_pt_lim_scal G c t _ D2)|].
  assert (0 <= c * Ki) by nra. assert (0 <= c * Gi) by nra. rewrite DEM_eval by (auto; nra). destruct (sph_scale c (K t) (G t) Hc P1 P2) as (-> & ->).
  replace (1 / (1 - t) * (c * Ki - c * K t) * sphP (K t) (G t) Ki Gi al) with (c * ((Ki - K t) * sphP (K t) (G t) Ki Gi al) / (1 - t)) by (field; lra).
  replace (1 / (1 - t) * (c * Gi - c * G t) * sphQ (K t) (G t) Ki Gi al) with (c * ((Gi - G t) * sphQ (K t) (G t) Ki Gi al) / (1 - t)) by (field; lra).
  rewrite <- E1, <- E2. replace (c * ((1 - t) * K' t) / (1 - t)) with (c * K' t) by (field; lra). replace (c * ((1 - t) * G' t) / (1 - t)) with (c * G' t) by (field; lra). reflexivity.
Qed.

(** ** Replacing the whole host *)
Lemma F1_low A r f th : -1 <= A -> 0 <= r <= 3/4 -> 0 < th <= 2/3 -> f <= 0 -> 0 <= f + th -> - (3/8) * f <= pF1 A r f th.
Proof.
  intros HA Hr Ht Hf Hft. unfold pF1. set (w := 3/2 * (f + th) - r * (3/2 * f + 5/2 * th - 4/3)).
  replace (1 + A * w) with ((1 - w) + (A + 1) * w) by ring.
  assert (W : 0 <= w <= 1 + 3/8 * f).
  { assert (E : w = (1 - 4/3 * r) * (3/2 * (f + th)) + 4/3 * r * (1 + 3/8 * f - 3/8 * th)) by (unfold w; field). rewrite E.
    assert (0 <= (1 - 4/3 * r) * (3/2 * (f + th))) by (apply Rmult_le_pos; lra). assert (0 <= 4/3 * r * (1 + 3/8 * f - 3/8 * th)) by (apply Rmult_le_pos; lra).
    assert ((1 - 4/3 * r) * (3/2 * (f + th)) <= (1 - 4/3 * r) * (1 + 3/8 * f)) by (apply Rmult_le_compat_l; lra).
    assert (4/3 * r * (1 + 3/8 * f - 3/8 * th) <= 4/3 * r * (1 + 3/8 * f)) by (apply Rmult_le_compat_l; lra). lra. }
  assert (0 <= (A + 1) * w) by (apply Rmult_le_pos; lra). lra.
Qed.
Lemma F2_up A k r f th M : 1 <= M -> -1 <= A -> A + 1 <= M -> -1 <= k -> k + 1 <= M -> 0 <= r <= 3/4 -> 0 < th <= 2/3 -> f <= 0 -> 0 <= f + th ->
  pF2 A ((k - A) / 3) r f th <= 10 * (M * M).
Proof.
  intros HM HA HA' Hk Hk' Hr Ht Hf Hft.
  set (W := f * (1 - r) + th * (1 + r - 2 * r * th)).
  set (b := 2 * (1 - r) * (th - f) - (3 - 4 * r) * th^2).
  set (c1 := r * (2 * (1 - r) * (f - th) + (3 - 4 * r) * th^2 + 4/3)).
  set (c3 := (3/2 - 2 * r) * W).
  replace (pF2 A ((k - A) / 3) r f th) with (r * b + (A + 1) * c1 + (k + 1) * ((1 - 4/3 * r) * (1 - 3/2 * W)) + (A + 1) * (k + 1) * c3)
    by (unfold pF2, b, c1, c3, W; field).
  assert (W0 : 0 <= W). { unfold W. assert (0 <= (f + th) * (1 - r)) by (apply Rmult_le_pos; lra). assert (0 <= th * (2 * r * (1 - th))) by (repeat apply Rmult_le_pos; lra). lra. }
  assert (W1 : W <= 4/3). { unfold W. assert (f * (1 - r) <= 0) by nra. assert (0 <= r * th * th) by (repeat apply Rmult_le_pos; lra). assert (r * th <= 1 * (2/3)) by (apply Rmult_le_compat; lra). lra. }
  assert (T2 : 0 <= th^2 <= 4/9) by nra.
  assert (C0 : r * b <= 2). { assert (0 <= (3 - 4 * r) * th^2) by (apply Rmult_le_pos; lra). assert ((1 - r) * (th - f) <= 1 * (4/3)) by (apply Rmult_le_compat; lra).
    assert (b <= 8/3) by (unfold b; lra). assert (r * b <= r * (8/3)) by (apply Rmult_le_compat_l; lra). lra. }
  assert (C1 : c1 <= 2). { unfold c1. assert ((3 - 4 * r) * th^2 <= 3 * (4/9)) by (apply Rmult_le_compat; lra). assert (0 <= (1 - r) * (th - f)) by (apply Rmult_le_pos; lra).
    apply Rle_trans with (r * (8/3)); [apply Rmult_le_compat_l; lra|lra]. }
  assert (C2 : (1 - 4/3 * r) * (1 - 3/2 * W) <= 1). { assert (0 <= (1 - 4/3 * r) * W) by (apply Rmult_le_pos; lra). lra. }
  assert (C3 : c3 <= 2). { unfold c3. assert ((3/2 - 2 * r) * W <= 3/2 * (4/3)) by (apply Rmult_le_compat; lra). lra. }
  assert (MM : M <= M * M). { assert (0 <= M * (M - 1)) by (apply Rmult_le_pos; lra). lra. }
  assert ((A + 1) * c1 <= 2 * M). { apply Rle_trans with ((A + 1) * 2); [apply Rmult_le_compat_l; lra|lra]. }
  assert ((k + 1) * ((1 - 4/3 * r) * (1 - 3/2 * W)) <= M). { apply Rle_trans with ((k + 1) * 1); [apply Rmult_le_compat_l; lra|lra]. }
  assert ((A + 1) * (k + 1) <= M * M) by (apply Rmult_le_compat; lra).
  assert ((A + 1) * (k + 1) * c3 <= 2 * (M * M)). { assert (0 <= (A + 1) * (k + 1)) by (apply Rmult_le_pos; lra). apply Rle_trans with ((A + 1) * (k + 1) * 2); [apply Rmult_le_compat_l; lra|lra]. }
  lra.
Qed.
Lemma F3_up A r f th M : 1 <= M -> -1 <= A -> A + 1 <= M -> 0 <= r <= 3/4 -> 0 < th <= 2/3 -> f <= 0 -> 0 <= f + th -> pF3 A r f th <= 2 * M.
Proof.
  intros HM HA HA' Hr Ht Hf Hft. unfold pF3. set (w := f * (1 - r) + th * (3/2 - r)).
  replace (1 + A * (1 - f - 3/2 * th + r * (f + th))) with (w + (A + 1) * (1 - w)) by (unfold w; ring).
  assert (W : 0 <= w <= 1). { unfold w. assert (0 <= (f + th) * (1 - r)) by (apply Rmult_le_pos; lra). assert (f * (1 - r) <= 0) by nra. assert (0 <= r * th) by (apply Rmult_le_pos; lra). lra. }
  assert ((A + 1) * (1 - w) <= M * 1) by (apply Rmult_le_compat; lra). lra.
Qed.
(** Along a trajectory the two factors stay above a positive number. *)
Lemma dem_low : exists c, 0 < c /\ forall t, 0 <= t < 1 -> c <= sphP (K t) (G t) Ki Gi al /\ c <= sphQ (K t) (G t) Ki Gi al.
Proof.
  destruct (shape_range al Hal) as (T1 & T2 & T3). assert (T4 := shape_f_neg al Hal). set (f := shape_f al) in *. set (th := shape_th al) in *.
  destruct (H 0 ltac:(lra)) as (K0 & G0 & _).
  set (M := 1 + Ki / K 0 + Gi / G 0). assert (Q1 : 0 <= Ki / K 0) by (apply le_div_iff; lra). assert (Q2 : 0 <= Gi / G 0) by (apply le_div_iff; lra).
  assert (HM : 1 <= M) by (unfold M; lra). assert (MM : 0 < M * M) by nra.
  assert (c1 : 0 < - (3/8) * f / (10 * (M * M))) by (apply Rdiv_lt_0_compat; lra). assert (c2 : 0 < 1 / (5 * M)) by (apply Rdiv_lt_0_compat; lra).
  exists (Rmin (- (3/8) * f / (10 * (M * M))) (1 / (5 * M))). split; [apply Rmin_glb_lt; auto|].
  intros t Ht. destruct (H t Ht) as (P1 & P2 & _). destruct (dem_between m Ki Gi al K G K' G' HKi HGi Hal H t Ht) as ((B1 & _) & (B2 & _)).
  set (k := K t) in *. set (g := G t) in *.
  assert (Rk : 0 <= Ki / k <= M). { split; [apply le_div_iff; lra|]. apply div_le_iff; [lra|]. unfold M, Rmin in *. destruct (Rle_dec (K 0) Ki) as [L|L].
    - assert (Ki = Ki / K 0 * K 0) by (field; lra). assert (Ki / K 0 * K 0 <= Ki / K 0 * k) by (apply Rmult_le_compat_l; lra). assert (0 <= Gi / G 0 * k) by (apply Rmult_le_pos; lra). lra.
    - assert (0 <= Ki / K 0 * k) by (apply Rmult_le_pos; lra). assert (0 <= Gi / G 0 * k) by (apply Rmult_le_pos; lra). lra. }
  assert (Rg : 0 <= Gi / g <= M). { split; [apply le_div_iff; lra|]. apply div_le_iff; [lra|]. unfold M, Rmin in *. destruct (Rle_dec (G 0) Gi) as [L|L].
    - assert (Gi = Gi / G 0 * G 0) by (field; lra). assert (Gi / G 0 * G 0 <= Gi / G 0 * g) by (apply Rmult_le_compat_l; lra). assert (0 <= Ki / K 0 * g) by (apply Rmult_le_pos; lra). lra.
    - assert (0 <= Ki / K 0 * g) by (apply Rmult_le_pos; lra). assert (0 <= Gi / G 0 * g) by (apply Rmult_le_pos; lra). lra. }
  destruct (sph_pq k g Ki Gi al) as (-> & ->). fold f th. set (A := Gi / g - 1). set (r := g / (k + 4/3*g)).
  assert (Hr : 0 < r < 3/4) by (unfold r; split; [apply Rdiv_lt_0_compat; lra|apply div_lt_iff; lra]).
  replace ((Ki / k - Gi / g) / 3) with ((Ki / k - 1 - A) / 3) by (unfold A; field; lra). set (kk := Ki / k - 1).
  assert (HA : -1 <= A) by (unfold A; lra). assert (Hkk : -1 <= kk) by (unfold kk; lra).
  assert (L2 := F2_low A kk r f th HA Hkk ltac:(lra) T1 T2 T3).
  assert (Z2 : 0 < pF2 A ((kk - A) / 3) r f th). { apply Rlt_le_trans with (2 := L2). apply Rmult_lt_0_compat; [lra|]. assert (0 <= (kk + 1) * (1 - 4/3 * r)) by (apply Rmult_le_pos; lra). lra. }
  assert (U2 : pF2 A ((kk - A) / 3) r f th <= 10 * (M * M)) by (apply F2_up; auto; unfold A, kk; lra).
  destruct (F34_low A r f th HA ltac:(lra) T1 T2 T3) as (Z3 & Z4).
  assert (U3 : pF3 A r f th <= 2 * M) by (apply F3_up; auto; unfold A; lra).
  assert (L1 := F1_low A r f th HA ltac:(lra) T1 T2 T3). split.
  - apply Rle_trans with (1 := Rmin_l _ _). unfold pqP. apply Rle_trans with (- (3/8) * f / pF2 A ((kk - A) / 3) r f th).
    + unfold Rdiv. apply Rmult_le_compat_l; [lra|]. apply Rinv_le_contravar; auto.
    + unfold Rdiv. apply Rmult_le_compat_r; [left; apply Rinv_0_lt_compat; auto|exact L1].
  - apply Rle_trans with (1 := Rmin_r _ _). rewrite pqQ_alt by lra.
    assert (Y1 : 1 / M <= 2 / pF3 A r f th). { apply le_div_iff; [lra|]. replace 2 with (1 / M * (2 * M)) by (field; lra). apply Rmult_le_compat_l; [left; apply Rdiv_lt_0_compat; lra|exact U3]. }
    assert (Y2 : 0 < 2 / pF4 A r f th) by (apply Rdiv_lt_0_compat; lra).
    assert (Y3 : 0 <= (4 * r + (kk + 1) * (3 - 4 * r)) / (3 * pF2 A ((kk - A) / 3) r f th)). { apply le_div_iff; [lra|]. assert (0 <= (kk + 1) * (3 - 4 * r)) by (apply Rmult_le_pos; lra). lra. }
    replace (1 / (5 * M)) with (1 / M / 5) by (field; lra). lra.
Qed.
(** The distance to the inclusion's moduli falls at least like a power of the remaining host fraction. *)
Lemma decay (u u' P : R -> R) c a : 0 < c -> (forall t, 0 <= t < 1 -> derivable_pt_lim u t (u' t) /\ (1 - t) * u' t = (a - u t) * P t /\ c <= P t) ->
  forall t, 0 <= t < 1 -> Rabs (u t - a) <= Rabs (u 0 - a) * Rpower (1 - t) c.
Proof.
  intros Hc Hu t Ht.
  assert (X : - (Rpower (1 - 0) (- (2 * c)) * (u 0 - a)^2) <= - (Rpower (1 - t) (- (2 * c)) * (u t - a)^2)).
  { apply (nondec (fun t => - (Rpower (1 - t) (- (2 * c)) * (u t - a)^2)) (fun t => 2 * (P t - c) * (Rpower (1 - t) (- (2 * c)) * (u t - a)^2) / (1 - t)) 0 t); [lra|]. intros s Hs.
    destruct (Hu s ltac:(lra)) as (D & E & L). split.
    - assert (E' : u' s = (a - u s) * P s / (1 - s)) by (rewrite <- E; field; lra).
      apply is_derive_Reals. apply is_derive_Reals in D. unfold Rpower. evar_last. { auto_derive; [split; [lra|split; [eexists; exact D|exact I]]|reflexivity]. }
      replace (Derive (fun x : R => u x) s) with (u' s) by (symmetry; apply is_derive_unique; exact D). rewrite E'. replace (1 + - s) with (1 - s) by ring. field. lra.
    - apply le_div_iff; [lra|]. rewrite Rmult_0_l. apply Rmult_le_pos; [lra|]. apply Rmult_le_pos; [left; apply exp_pos|apply pow2_ge_0]. }
  replace (1 - 0) with 1 in X by ring. replace (Rpower 1 (- (2 * c))) with 1 in X by (unfold Rpower; rewrite ln_1, Rmult_0_r, exp_0; reflexivity).
  assert (Z : (u t - a)^2 <= (Rabs (u 0 - a) * Rpower (1 - t) c)^2).
  { rewrite Rpow_mult_distr, pow2_abs. assert (W : Rpower (1 - t) c ^ 2 * Rpower (1 - t) (- (2 * c)) = 1).
    { unfold Rpower. replace (exp (c * ln (1 - t)) ^ 2) with (exp (c * ln (1 - t)) * exp (c * ln (1 - t))) by ring. rewrite <- !exp_plus.
      replace (c * ln (1 - t) + c * ln (1 - t) + - (2 * c) * ln (1 - t)) with 0 by ring. apply exp_0. }
    set (w := Rpower (1 - t) c ^ 2) in *. assert (0 < w) by (unfold w; apply pow_lt, exp_pos).
    replace ((u t - a)^2) with (w * (Rpower (1 - t) (- (2 * c)) * (u t - a)^2)) by (rewrite <- Rmult_assoc, W; ring). rewrite Rmult_comm. apply Rmult_le_compat_r; [lra|]. lra. }
  rewrite <- pow2_abs in Z. apply Rsqr_incr_0_var; [unfold Rsqr; lra|]. apply Rmult_le_pos; [apply Rabs_pos|left; apply exp_pos].
Qed.
Lemma dem_full : exists c, 0 < c /\ forall t, 0 <= t < 1 -> Rabs (K t - Ki) <= Rabs (K 0 - Ki) * Rpower (1 - t) c /\ Rabs (G t - Gi) <= Rabs (G 0 - Gi) * Rpower (1 - t) c.
Proof.
  destruct dem_low as (c & Hc & L). exists c. split; [exact Hc|]. intros t Ht. split.
  - apply (decay K K' (fun t => sphP (K t) (G t) Ki Gi al)); auto. intros s Hs. destruct (H s Hs) as (_ & _ & D & _). destruct (dem_rhs m Ki Gi al K G K' G' HKi HGi Hal H s Hs) as (E & _). destruct (L s Hs). auto.
  - apply (decay G G' (fun t => sphQ (K t) (G t) Ki Gi al)); auto. intros s Hs. destruct (H s Hs) as (_ & _ & _ & D & _). destruct (dem_rhs m Ki Gi al K G K' G' HKi HGi Hal H s Hs) as (_ & E). destruct (L s Hs). auto.
Qed.
End Any.
Lemma dem_limit m Ki Gi al K G K' G' : 0 <= Ki -> 0 <= Gi -> 0 < al <= 1 -> dem_traj m Ki Gi al K G K' G' ->
  forall eps, 0 < eps -> exists d, 0 < d /\ forall t, 0 <= t < 1 -> 1 - d < t -> Rabs (K t - Ki) < eps /\ Rabs (G t - Gi) < eps.
Proof.
  intros HKi HGi Hal H eps He. destruct (dem_full m Ki Gi al K G K' G' HKi HGi Hal H) as (c & Hc & D).
  set (N := 1 + Rabs (K 0 - Ki) + Rabs (G 0 - Gi)). assert (A1 := Rabs_pos (K 0 - Ki)). assert (A2 := Rabs_pos (G 0 - Gi)).
  assert (HN : 0 < eps / N) by (apply Rdiv_lt_0_compat; unfold N; lra).
  exists (Rpower (eps / N) (1 / c)). split; [apply exp_pos|]. intros t Ht Hd.
  assert (X : Rpower (1 - t) c < eps / N).
  { replace (eps / N) with (Rpower (Rpower (eps / N) (1 / c)) c); [apply Rlt_Rpower_l; lra|]. rewrite Rpower_mult. replace (1 / c * c) with 1 by (field; lra). apply Rpower_1; auto. }
  assert (Y : 0 < Rpower (1 - t) c) by apply exp_pos. destruct (D t Ht) as (D1 & D2).
  assert (E : N * (eps / N) = eps) by (field; unfold N; lra).
  assert (Z : N * Rpower (1 - t) c < eps) by (rewrite <- E; apply Rmult_lt_compat_l; [unfold N; lra|exact X]). unfold N in Z.
  assert (0 <= Rabs (K 0 - Ki) * Rpower (1 - t) c) by (apply Rmult_le_pos; lra). assert (0 <= Rabs (G 0 - Gi) * Rpower (1 - t) c) by (apply Rmult_le_pos; lra).
  split; lra.
Qed.

(** ** Empty spheres *)
Section DrySph.
Variables (m : mode) (K G K' G' : R -> R).
Hypothesis (H : dem_traj m 0 0 1 K G K' G').
Lemma drysph t : 0 <= t < 1 -> 0 < K t /\ 0 < G t /\ derivable_pt_lim K t (- (K t * (3 * K t + 4 * G t) / (4 * G t * (1 - t)))) /\
  derivable_pt_lim G t (- (5 * G t * (3 * K t + 4 * G t) / ((9 * K t + 8 * G t) * (1 - t)))).
Proof.
  intros Ht. destruct (H t Ht) as (P1 & P2 & D1 & D2 & E). rewrite DEM_eval in E by (auto; lra). injection E as E1 E2.
  destruct (sph1 (K t) (G t) 0 0) as (S1 & S2); try lra. rewrite S1 in E1. rewrite S2 in E2. unfold zK, zG in *.
  assert (0 < K t * G t) by nra. assert (0 < K t * K t) by nra. assert (0 < G t * G t) by nra.
  split; [exact P1|]. split; [exact P2|]. split.
  - replace (- (K t * (3 * K t + 4 * G t) / (4 * G t * (1 - t)))) with (K' t); [exact D1|]. rewrite <- E1. field. lra.
  - replace (- (5 * G t * (3 * K t + 4 * G t) / ((9 * K t + 8 * G t) * (1 - t)))) with (G' t); [exact D2|]. rewrite <- E2. field. repeat split; nra.
Qed.
Lemma const_on (u : R -> R) T : 0 <= T -> (forall t, 0 <= t <= T -> derivable_pt_lim u t 0) -> u T = u 0.
Proof.
  intros HT D. assert (A : u 0 <= u T) by (apply (nondec u (fun _ => 0) 0 T HT); intros t Ht; split; [apply D; auto|lra]).
  assert (B : - u 0 <= - u T). { apply (nondec (fun t => - u t) (fun _ => - 0) 0 T HT). intros t Ht. split; [apply derivable_pt_lim_opp, D; auto|lra]. } lra.
Qed.
Lemma dry_inv1 t : 0 <= t < 1 -> (4 * G t - 3 * K t)^5 * (K 0 ^ 5 * G 0 ^ 3) = (4 * G 0 - 3 * K 0)^5 * (K t ^ 5 * G t ^ 3).
Proof.
  intros Ht. assert (E : (4 * G t - 3 * K t)^5 / (K t ^ 5 * G t ^ 3) = (4 * G 0 - 3 * K 0)^5 / (K 0 ^ 5 * G 0 ^ 3)).
  { apply (const_on (fun t => (4 * G t - 3 * K t)^5 / (K t ^ 5 * G t ^ 3)) t); [lra|]. intros s Hs. destruct (drysph s ltac:(lra)) as (P1 & P2 & D1 & D2).
    apply is_derive_Reals. apply is_derive_Reals in D1. apply is_derive_Reals in D2.
    assert (Q1 : K s ^ 5 * G s ^ 3 <> 0) by (apply Rgt_not_eq, Rmult_lt_0_compat; apply pow_lt; auto).
    evar_last. { auto_derive; [repeat split; try (eexists; eassumption); exact Q1|reflexivity]. }
    replace (Derive (fun x : R => K x) s) with (- (K s * (3 * K s + 4 * G s) / (4 * G s * (1 - s)))) by (symmetry; apply is_derive_unique; exact D1).
    replace (Derive (fun x : R => G x) s) with (- (5 * G s * (3 * K s + 4 * G s) / ((9 * K s + 8 * G s) * (1 - s)))) by (symmetry; apply is_derive_unique; exact D2).
    field. repeat split; lra. }
  destruct (H t Ht) as (P1 & P2 & _). destruct (H 0 ltac:(lra)) as (P3 & P4 & _).
  assert (Q1 : K t ^ 5 * G t ^ 3 <> 0) by (apply Rgt_not_eq, Rmult_lt_0_compat; apply pow_lt; auto). assert (Q2 : K 0 ^ 5 * G 0 ^ 3 <> 0) by (apply Rgt_not_eq, Rmult_lt_0_compat; apply pow_lt; auto).
  set (a := (4 * G t - 3 * K t)^5) in *. set (b := (4 * G 0 - 3 * K 0)^5) in *. set (c := K t ^ 5 * G t ^ 3) in *. set (d := K 0 ^ 5 * G 0 ^ 3) in *.
  replace a with (a / c * c) by (field; auto). rewrite E. field. auto.
Qed.
Lemma dry_inv2 t : 0 <= t < 1 -> K t * G t ^ 3 * (3 * K 0 + 4 * G 0) = K 0 * G 0 ^ 3 * (3 * K t + 4 * G t) * (1 - t) ^ 6.
Proof.
  intros Ht. assert (E : K t * G t ^ 3 / ((3 * K t + 4 * G t) * (1 - t)^6) = K 0 * G 0 ^ 3 / ((3 * K 0 + 4 * G 0) * (1 - 0)^6)).
  { apply (const_on (fun t => K t * G t ^ 3 / ((3 * K t + 4 * G t) * (1 - t)^6)) t); [lra|]. intros s Hs. destruct (drysph s ltac:(lra)) as (P1 & P2 & D1 & D2).
    apply is_derive_Reals. apply is_derive_Reals in D1. apply is_derive_Reals in D2.
    assert (Q1 : (3 * K s + 4 * G s) * (1 - s)^6 <> 0) by (apply Rgt_not_eq, Rmult_lt_0_compat; [lra|apply pow_lt; lra]).
    evar_last. { auto_derive; [repeat split; try (eexists; eassumption); exact Q1|reflexivity]. }
    replace (Derive (fun x : R => K x) s) with (- (K s * (3 * K s + 4 * G s) / (4 * G s * (1 - s)))) by (symmetry; apply is_derive_unique; exact D1).
    replace (Derive (fun x : R => G x) s) with (- (5 * G s * (3 * K s + 4 * G s) / ((9 * K s + 8 * G s) * (1 - s)))) by (symmetry; apply is_derive_unique; exact D2).
    field. repeat split; lra. }
  destruct (H t Ht) as (P1 & P2 & _). destruct (H 0 ltac:(lra)) as (P3 & P4 & _).
  replace (K t * G t ^ 3) with (K t * G t ^ 3 / ((3 * K t + 4 * G t) * (1 - t)^6) * ((3 * K t + 4 * G t) * (1 - t)^6)) by (field; lra). rewrite E. field. lra.
Qed.
End DrySph.
(** The two relations have one positive solution. *)
Lemma pow_lt_strict x y n : 0 <= x < y -> (0 < n)%nat -> x ^ n < y ^ n.
Proof.
  intros Hx Hn. induction n as [|n IH]; [inversion Hn|]. destruct n as [|n]; [lra|]. specialize (IH (Nat.lt_0_succ n)).
  rewrite <- (tech_pow_Rmult x), <- (tech_pow_Rmult y). assert (0 <= x ^ S n) by (apply pow_le; lra). apply Rle_lt_trans with (x * y ^ S n); [apply Rmult_le_compat_l; lra|apply Rmult_lt_compat_r; lra].
Qed.
Lemma ratio_strict x y : 0 < x -> x < y -> (4 - 3 * x)^5 * (y^4 * (3 * y + 4)) = (4 - 3 * y)^5 * (x^4 * (3 * x + 4)) -> False.
Proof.
  intros Hx Hxy E. assert (X4 : 0 < x^4) by (apply pow_lt; lra). assert (Y4 : x^4 < y^4) by (apply pow_lt_strict; [lra|repeat constructor]).
  assert (C : x^4 * (3 * x + 4) < y^4 * (3 * y + 4)) by (apply Rmult_le_0_lt_compat; lra). assert (C0 : 0 < x^4 * (3 * x + 4)) by (apply Rmult_lt_0_compat; lra).
  destruct (Rle_or_lt x (4/3)) as [L|L].
  - assert (A : 0 <= (4 - 3 * x)^5) by (apply pow_le; lra). destruct (Rle_or_lt y (4/3)) as [L'|L'].
    + assert (B : (4 - 3 * y)^5 < (4 - 3 * x)^5) by (apply pow_lt_strict; [lra|repeat constructor]). assert (0 <= (4 - 3 * y)^5) by (apply pow_le; lra).
      assert ((4 - 3 * y)^5 * (x^4 * (3 * x + 4)) < (4 - 3 * x)^5 * (y^4 * (3 * y + 4))) by (apply Rmult_le_0_lt_compat; lra). lra.
    + assert (B : 0 < (3 * y - 4)^5) by (apply pow_lt; lra). replace ((4 - 3 * y)^5) with (- (3 * y - 4)^5) in E by ring.
      assert (0 <= (4 - 3 * x)^5 * (y^4 * (3 * y + 4))) by (apply Rmult_le_pos; lra). assert (0 < (3 * y - 4)^5 * (x^4 * (3 * x + 4))) by (apply Rmult_lt_0_compat; lra). lra.
  - assert (Z1 : ((3 * x - 4) * y)^4 < ((3 * y - 4) * x)^4) by (apply pow_lt_strict; [split; [apply Rmult_le_pos; lra|lra]|repeat constructor]).
    assert (Z2 : (3 * x - 4) * (3 * y + 4) < (3 * y - 4) * (3 * x + 4)) by lra.
    assert (((3 * x - 4) * y)^4 * ((3 * x - 4) * (3 * y + 4)) < ((3 * y - 4) * x)^4 * ((3 * y - 4) * (3 * x + 4))).
    { apply Rmult_le_0_lt_compat; auto; [apply pow_le, Rmult_le_pos; lra|apply Rmult_le_pos; lra]. }
    replace (((3 * x - 4) * y)^4 * ((3 * x - 4) * (3 * y + 4))) with (- ((4 - 3 * x)^5 * (y^4 * (3 * y + 4)))) in H by ring.
    replace (((3 * y - 4) * x)^4 * ((3 * y - 4) * (3 * x + 4))) with (- ((4 - 3 * y)^5 * (x^4 * (3 * x + 4)))) in H by ring. lra.
Qed.
Lemma dry_pinned a b k1 g1 k2 g2 s : 0 < k1 -> 0 < g1 -> 0 < k2 -> 0 < g2 -> 0 < a -> 0 < b -> 0 < s ->
  (4 * g1 - 3 * k1)^5 * (a^5 * b^3) = (4 * b - 3 * a)^5 * (k1^5 * g1^3) -> (4 * g2 - 3 * k2)^5 * (a^5 * b^3) = (4 * b - 3 * a)^5 * (k2^5 * g2^3) ->
  k1 * g1^3 * (3 * a + 4 * b) = a * b^3 * (3 * k1 + 4 * g1) * s -> k2 * g2^3 * (3 * a + 4 * b) = a * b^3 * (3 * k2 + 4 * g2) * s -> k1 = k2 /\ g1 = g2.
Proof.
  intros K1 G1 K2 G2 A B S E1 E2 F1 F2.
  set (N := a^5 * b^3) in *. assert (HN : 0 < N) by (apply Rmult_lt_0_compat; apply pow_lt; lra). set (c := (4 * b - 3 * a)^5) in *.
  set (d := a * b^3 * s / (3 * a + 4 * b)).
  assert (B3 : 0 < b^3) by (apply pow_lt; lra). assert (HD : 0 < d). { apply Rdiv_lt_0_compat; [|lra]. apply Rmult_lt_0_compat; [|lra]. apply Rmult_lt_0_compat; lra. }
  assert (T : forall k g, 0 < k -> 0 < g -> (4 * g - 3 * k)^5 * N = c * (k^5 * g^3) -> k * g^3 * (3 * a + 4 * b) = a * b^3 * (3 * k + 4 * g) * s ->
     let x := k / g in 0 < x /\ (4 - 3 * x)^5 = c * d / N * (x^4 * (3 * x + 4)) /\ g^3 * x = d * (3 * x + 4)).
  { intros k g Hk Hg E F x. assert (Hx : 0 < x) by (apply Rdiv_lt_0_compat; auto). assert (Ek : k = x * g) by (unfold x; field; lra). rewrite Ek in E, F.
    assert (G3 : 0 < g^3) by (apply pow_lt; lra). assert (G5 : 0 < g^5) by (apply pow_lt; lra).
    assert (Fx : g^3 * x = d * (3 * x + 4)).
    { unfold d. apply Rmult_eq_reg_r with (g * (3 * a + 4 * b)); [|nra]. replace (g^3 * x * (g * (3 * a + 4 * b))) with (x * g * g^3 * (3 * a + 4 * b)) by ring. rewrite F. field. lra. }
    split; [exact Hx|]. split; [|exact Fx].
    apply Rmult_eq_reg_r with (g^5 * N); [|nra]. replace ((4 - 3 * x)^5 * (g^5 * N)) with ((4 * g - 3 * (x * g))^5 * N) by ring. rewrite E.
    replace (c * ((x * g)^5 * g^3)) with (c * g^5 * x^4 * (g^3 * x)) by ring. rewrite Fx. field. lra. }
  destruct (T k1 g1 K1 G1 E1 F1) as (X1 & P1 & Q1). destruct (T k2 g2 K2 G2 E2 F2) as (X2 & P2 & Q2). set (x := k1 / g1) in *. set (y := k2 / g2) in *.
  assert (EX : (4 - 3 * x)^5 * (y^4 * (3 * y + 4)) = (4 - 3 * y)^5 * (x^4 * (3 * x + 4))) by (rewrite P1, P2; ring).
  assert (XY : x = y). { destruct (Rtotal_order x y) as [L|[L|L]]; [|exact L|]; exfalso; [apply (ratio_strict x y X1 L EX)|apply (ratio_strict y x X2 L)]. rewrite EX. reflexivity. }
  assert (G12 : g1 = g2). { assert (C : g1^3 = g2^3). { apply Rmult_eq_reg_r with x; [|lra]. rewrite Q1. rewrite XY at 2. rewrite Q2, XY. reflexivity. }
    destruct (Rtotal_order g1 g2) as [L|[L|L]]; [|exact L|]; exfalso.
    - assert (g1^3 < g2^3) by (apply pow_lt_strict; [lra|repeat constructor]). lra.
    - assert (g2^3 < g1^3) by (apply pow_lt_strict; [lra|repeat constructor]). lra. }
  split; [|exact G12]. replace k1 with (x * g1) by (unfold x; field; lra). replace k2 with (y * g2) by (unfold y; field; lra). rewrite XY, G12. reflexivity.
Qed.
(** The values recorded in the test suite for Berryman_DEM. *)
Lemma recorded m K G K' G' : K 0 = 37 -> G 0 = 44 -> dem_traj m 0 0 1 K G K' G' -> 36.38 <= K (1/100).
Proof.
  intros K0 G0 H.
  assert (Bd : forall t, 0 <= t <= 1/100 -> 0 < K t <= 37 /\ 0 < G t <= 44).
  { intros t Ht. destruct (dem_between m 0 0 1 K G K' G' ltac:(lra) ltac:(lra) ltac:(lra) H t ltac:(lra)) as ((_ & B1) & (_ & B2)). destruct (H t ltac:(lra)) as (P1 & P2 & _).
    rewrite K0, Rmax_left in B1 by lra. rewrite G0, Rmax_left in B2 by lra. lra. }
  assert (Gl : forall t, 0 <= t <= 1/100 -> 42.8 <= G t).
  { intros t Ht. assert (X : G 0 + 112 * 0 <= G t + 112 * t).
    { apply (nondec (fun t => G t + 112 * t) (fun t => - (5 * G t * (3 * K t + 4 * G t) / ((9 * K t + 8 * G t) * (1 - t))) + 112) 0 t); [lra|]. intros s Hs. destruct (drysph m K G K' G' H s ltac:(lra)) as (P1 & P2 & _ & D2). split.
      - apply (derivable_pt_lim_plus G (fun t => 112 * t) s _ _ D2). apply is_derive_Reals. evar_last. { auto_derive; [exact I|reflexivity]. } ring.
      - assert (Z : 5 * G s * (3 * K s + 4 * G s) / ((9 * K s + 8 * G s) * (1 - s)) <= 112); [|lra]. destruct (Bd s ltac:(lra)) as (B1 & B2).
        apply div_le_iff; [apply Rmult_lt_0_compat; lra|]. assert (A1 : (9 * K s + 8 * G s) * (99/100) <= (9 * K s + 8 * G s) * (1 - s)) by (apply Rmult_le_compat_l; lra).
        assert (A2 : 5 * G s * (3 * K s + 4 * G s) <= 5 * 44 * (3 * K s + 4 * G s)) by (apply Rmult_le_compat_r; lra). lra. }
    lra. }
  assert (X : K 0 + 62 * 0 <= K (1/100) + 62 * (1/100)); [|lra].
  apply (nondec (fun t => K t + 62 * t) (fun t => - (K t * (3 * K t + 4 * G t) / (4 * G t * (1 - t))) + 62) 0 (1/100)); [lra|]. intros s Hs. destruct (drysph m K G K' G' H s ltac:(lra)) as (P1 & P2 & D1 & _). split.
  - apply (derivable_pt_lim_plus K (fun t => 62 * t) s _ _ D1). apply is_derive_Reals. evar_last. { auto_derive; [exact I|reflexivity]. } ring.
  - assert (Z : K s * (3 * K s + 4 * G s) / (4 * G s * (1 - s)) <= 62); [|lra]. destruct (Bd s ltac:(lra)) as (B1 & B2). assert (B3 := Gl s ltac:(lra)).
    apply div_le_iff; [apply Rmult_lt_0_compat; lra|]. assert (A1 : 4 * G s * (99/100) <= 4 * G s * (1 - s)) by (apply Rmult_le_compat_l; lra).
    assert (A2 : K s * (3 * K s + 4 * G s) <= 37 * (3 * 37 + 4 * G s)) by (apply Rmult_le_compat; lra). lra.
Qed.
