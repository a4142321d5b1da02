(** * L_Dem2: existence of trajectories of the differential scheme, for solid, fluid and empty inclusions. *)
From Coq Require Import Reals Lra Psatz.
From Coquelicot Require Import Coquelicot.
From Verif Require Import Fl RealLemmas M_EM Spec Spec2 Spec12 L_EM5 L_EM6 L_EM8 L_Shape L_Ode L_Dem.
Open Scope R_scope.

(** ** Clamping *)
Definition clamp (a b x : R) : R := Rmax a (Rmin b x).
Lemma clamp_in a b x : a <= b -> a <= clamp a b x <= b.
Proof. intros. unfold clamp, Rmax, Rmin. repeat destruct Rle_dec; lra. Qed.
Lemma clamp_id a b x : a <= x <= b -> clamp a b x = x.
Proof. intros. unfold clamp, Rmax, Rmin. repeat destruct Rle_dec; lra. Qed.
Lemma clamp_lip a b x y : a <= b -> Rabs (clamp a b x - clamp a b y) <= Rabs (x - y).
Proof. intros. unfold clamp, Rmax, Rmin, Rabs. repeat destruct Rle_dec; repeat destruct Rcase_abs; lra. Qed.
Lemma clamp_sign a b c x : a <= c <= b -> (x - c) * (c - clamp a b x) <= 0.
Proof.
  intros H. assert (C : (x <= c /\ clamp a b x <= c) \/ (c <= x /\ c <= clamp a b x)) by (unfold clamp, Rmax, Rmin; repeat destruct Rle_dec; lra).
  destruct C as [(A & B)|(A & B)]; [assert (0 <= (c - x) * (c - clamp a b x)) by (apply Rmult_le_pos; lra)|assert (0 <= (x - c) * (clamp a b x - c)) by (apply Rmult_le_pos; lra)]; lra.
Qed.
Lemma Lip_abs k0 k1 g0 g1 u : Lip k0 k1 g0 g1 u -> Lip k0 k1 g0 g1 (fun K G => Rabs (u K G)).
Proof.
  intros (L & HL & H). exists L. split; [exact HL|]. intros K G K' G' I I'. apply Rle_trans with (2 := H K G K' G' I I').
  apply Rabs_triang_inv2.
Qed.
Lemma Lip_global k0 k1 g0 g1 u : k0 <= k1 -> g0 <= g1 -> Lip k0 k1 g0 g1 u -> exists L, 0 <= L /\ forall x y x' y',
  Rabs (u (clamp k0 k1 x) (clamp g0 g1 y) - u (clamp k0 k1 x') (clamp g0 g1 y')) <= L * (Rabs (x - x') + Rabs (y - y')).
Proof.
  intros Hk Hg (L & HL & H). exists L. split; [exact HL|]. intros. apply Rle_trans with (1 := H _ _ _ _ (conj (clamp_in _ _ x Hk) (clamp_in _ _ y Hg)) (conj (clamp_in _ _ x' Hk) (clamp_in _ _ y' Hg))).
  apply Rmult_le_compat_l; [exact HL|]. assert (A := clamp_lip k0 k1 x x' Hk). assert (B := clamp_lip g0 g1 y y' Hg). lra.
Qed.
Lemma picard_box k0 k1 g0 g1 u v x0 y0 : k0 <= k1 -> g0 <= g1 -> Lip k0 k1 g0 g1 u -> Lip k0 k1 g0 g1 v -> exists X Y : R -> R, X 0 = x0 /\ Y 0 = y0 /\
  forall s, derivable_pt_lim X s (u (clamp k0 k1 (X s)) (clamp g0 g1 (Y s))) /\ derivable_pt_lim Y s (v (clamp k0 k1 (X s)) (clamp g0 g1 (Y s))).
Proof.
  intros Hk Hg Hu Hv. destruct (Lip_global _ _ _ _ _ Hk Hg Hu) as (L & HL & H). destruct (Lip_global _ _ _ _ _ Hk Hg Hv) as (M & HM & H').
  apply (picard (fun x y => u (clamp k0 k1 x) (clamp g0 g1 y)) (fun x y => v (clamp k0 k1 x) (clamp g0 g1 y)) (L + M + 1)); [lra| |];
  intros x y x' y'; [apply Rle_trans with (1 := H x y x' y')|apply Rle_trans with (1 := H' x y x' y')];
  assert (A := Rabs_pos (x - x')); assert (B := Rabs_pos (y - y')); apply Rmult_le_compat_r; lra.
Qed.

(** ** Growth at most exponential keeps signs *)
Lemma keep_pos (x d : R -> R) C s : 0 <= s -> 0 < x 0 -> (forall u, 0 <= u <= s -> derivable_pt_lim x u (d u) /\ 0 <= d u + C * x u) -> 0 < x s.
Proof.
  intros Hs H0 H. assert (Y : x 0 * exp (C * 0) <= x s * exp (C * s)).
  { apply (nondec (fun u => x u * exp (C * u)) (fun u => (d u + C * x u) * exp (C * u)) 0 s Hs). intros t Ht. destruct (H t Ht) as (D & P). split.
    - apply is_derive_Reals. apply is_derive_Reals in D. evar_last. { auto_derive; [eexists; exact D|reflexivity]. }
      replace (Derive (fun x0 : R => x x0) t) with (d t) by (symmetry; apply is_derive_unique; exact D). ring.
    - apply Rmult_le_pos; [exact P|left; apply exp_pos]. }
  rewrite Rmult_0_r, exp_0 in Y. assert (E := exp_pos (C * s)). destruct (Rlt_or_le 0 (x s)) as [|N]; [auto|]. nra.
Qed.
(** A function that does not decrease while negative stays nonnegative. *)
Lemma negsq_der x : derivable_pt_lim (fun x => Rmin x 0 ^ 2) x (2 * Rmin x 0).
Proof.
  destruct (Rtotal_order x 0) as [H|[->|H]].
  - apply is_derive_Reals. apply (is_derive_ext_loc (fun x => x ^ 2)).
    + assert (P : 0 < - x) by lra. exists (mkposreal (- x) P). intros y Hy. change (Rabs (y - x) < - x) in Hy. change (y^2 = Rmin y 0 ^ 2); rewrite Rmin_left; [reflexivity|]. unfold Rabs in Hy; destruct Rcase_abs in Hy; lra.
    + rewrite Rmin_left by lra. evar_last. { auto_derive; [exact I|reflexivity]. } ring.
  - intros eps He. exists (mkposreal eps He). intros h Hn Hh. cbn in Hh. rewrite Rplus_0_l. unfold Rmin. destruct (Rle_dec h 0), (Rle_dec 0 0); try lra.
    + replace ((h^2 - 0^2) / h - 2 * 0) with h by (field; auto). exact Hh.
    + replace ((0^2 - 0^2) / h - 2 * 0) with 0 by (field; auto). rewrite Rabs_R0. exact He.
  - apply is_derive_Reals. apply (is_derive_ext_loc (fun x => 0)).
    + assert (P : 0 < x) by lra. exists (mkposreal x P). intros y Hy. change (Rabs (y - x) < x) in Hy. change (0 = Rmin y 0 ^ 2); rewrite Rmin_right; [ring|]. unfold Rabs in Hy; destruct Rcase_abs in Hy; lra.
    + rewrite Rmin_right by lra. evar_last. { auto_derive; [exact I|reflexivity]. } ring.
Qed.
Lemma keep_nonneg (x d : R -> R) s : 0 <= s -> 0 <= x 0 -> (forall u, 0 <= u <= s -> derivable_pt_lim x u (d u) /\ (x u <= 0 -> 0 <= d u)) -> 0 <= x s.
Proof.
  intros Hs H0 H.
  assert (Y : - (Rmin (x 0) 0 ^ 2) <= - (Rmin (x s) 0 ^ 2)).
  { apply (nondec (fun u => - (Rmin (x u) 0 ^ 2)) (fun u => - (2 * Rmin (x u) 0 * d u)) 0 s Hs). intros t Ht. destruct (H t Ht) as (D & P). split.
    - apply (derivable_pt_lim_opp (fun u => Rmin (x u) 0 ^ 2)). apply (derivable_pt_lim_comp x (fun y => Rmin y 0 ^ 2) t (d t) (2 * Rmin (x t) 0)); [exact D|apply negsq_der].
    - unfold Rmin. destruct Rle_dec as [L|L]; [|lra]. specialize (P L). nra. }
  rewrite (Rmin_right (x 0)) in Y by lra. destruct (Rle_or_lt 0 (x s)) as [|N]; [auto|]. rewrite (Rmin_left (x s)) in Y by lra. nra.
Qed.

(** ** From the autonomous flow to volume fractions *)
Section Flow.
Variables (m : mode) (Ki Gi al : R).
Hypotheses (HKi : 0 <= Ki) (HGi : 0 <= Gi) (Hal : 0 < al <= 1).
Lemma flow_traj (X Y : R -> R) : (forall s, 0 <= s -> 0 < X s /\ 0 < Y s /\ derivable_pt_lim X s ((Ki - X s) * sphP (X s) (Y s) Ki Gi al) /\ derivable_pt_lim Y s ((Gi - Y s) * sphQ (X s) (Y s) Ki Gi al)) ->
  exists K G K' G', K 0 = X 0 /\ G 0 = Y 0 /\ dem_traj m Ki Gi al K G K' G'.
Proof.
  intros H. exists (fun t => X (- ln (1 - t))), (fun t => Y (- ln (1 - t))),
    (fun t => 1 / (1 - t) * (Ki - X (- ln (1 - t))) * sphP (X (- ln (1 - t))) (Y (- ln (1 - t))) Ki Gi al), (fun t => 1 / (1 - t) * (Gi - Y (- ln (1 - t))) * sphQ (X (- ln (1 - t))) (Y (- ln (1 - t))) Ki Gi al).
  rewrite Rminus_0_r, ln_1, Ropp_0. split; [reflexivity|]. split; [reflexivity|].
  intros t Ht. assert (S : 0 <= - ln (1 - t)). { assert (X0 : ln (1 - t) <= ln 1) by (destruct (Req_dec t 0) as [->|N]; [rewrite Rminus_0_r; lra|left; apply ln_increasing; lra]). rewrite ln_1 in X0. lra. }
  destruct (H _ S) as (P1 & P2 & D1 & D2).
  assert (DL : derivable_pt_lim (fun t => - ln (1 - t)) t (1 / (1 - t))). { apply is_derive_Reals. evar_last. { auto_derive; [lra|reflexivity]. } field. lra. }
  split; [exact P1|]. split; [exact P2|]. split; [|split].
  - replace (1 / (1 - t) * (Ki - X (- ln (1 - t))) * sphP (X (- ln (1 - t))) (Y (- ln (1 - t))) Ki Gi al) with ((Ki - X (- ln (1 - t))) * sphP (X (- ln (1 - t))) (Y (- ln (1 - t))) Ki Gi al * (1 / (1 - t))) by ring.
    exact (derivable_pt_lim_comp (fun t => - ln (1 - t)) X t _ _ DL D1).
  - replace (1 / (1 - t) * (Gi - Y (- ln (1 - t))) * sphQ (X (- ln (1 - t))) (Y (- ln (1 - t))) Ki Gi al) with ((Gi - Y (- ln (1 - t))) * sphQ (X (- ln (1 - t))) (Y (- ln (1 - t))) Ki Gi al * (1 / (1 - t))) by ring.
    exact (derivable_pt_lim_comp (fun t => - ln (1 - t)) Y t _ _ DL D2).
  - apply DEM_eval; auto; lra.
Qed.
Variables (Km Gm : R).
Hypotheses (HKm : 0 < Km) (HGm : 0 < Gm).

(** Solid or fluid inclusions. *)
Lemma exists_filled : 0 < Ki \/ 0 < Gi -> exists K G K' G', K 0 = Km /\ G 0 = Gm /\ dem_traj m Ki Gi al K G K' G'.
Proof.
  intros Hor. set (k0 := Rmin Km Ki). set (k1 := Rmax Km Ki). set (g0 := Rmin Gm Gi). set (g1 := Rmax Gm Gi).
  assert (B1 : k0 <= Ki <= k1) by (split; [apply Rmin_r|apply Rmax_r]). assert (B2 : g0 <= Gi <= g1) by (split; [apply Rmin_r|apply Rmax_r]).
  assert (Z1 : 0 <= k0) by (unfold k0; apply Rmin_glb; lra). assert (Z2 : 0 <= g0) by (unfold g0; apply Rmin_glb; lra).
  assert (Z3 : 0 < k0 \/ Ki = 0). { destruct (Req_dec Ki 0); [auto|left; apply Rmin_glb_lt; lra]. }
  assert (Z4 : 0 < g0 \/ Gi = 0). { destruct (Req_dec Gi 0); [auto|left; apply Rmin_glb_lt; lra]. }
  assert (Z5 : 0 < k0 \/ 0 < g0) by lra. assert (Z6 : 0 < g0 \/ 0 < Ki) by lra.
  assert (LP : Lip k0 k1 g0 g1 (fun K G => Rabs (sphP K G Ki Gi al))) by (apply Lip_abs, Lip_sphP; auto; lra).
  assert (LQ : Lip k0 k1 g0 g1 (fun K G => Rabs (sphQ K G Ki Gi al))) by (apply Lip_abs, Lip_sphQ; auto; lra).
  assert (W1 : k0 <= k1) by lra. assert (W2 : g0 <= g1) by lra.
  destruct (Lip_bound _ _ _ _ W1 W2 _ LP) as (M & HM & BM). destruct (Lip_bound _ _ _ _ W1 W2 _ LQ) as (M' & HM' & BM').
  destruct (picard_box k0 k1 g0 g1 (fun K G => (Ki - K) * Rabs (sphP K G Ki Gi al)) (fun K G => (Gi - G) * Rabs (sphQ K G Ki Gi al)) Km Gm W1 W2) as (X & Y & X0 & Y0 & HD); [lip|lip|].
  assert (In : forall s, 0 <= s -> k0 <= X s <= k1 /\ g0 <= Y s <= g1).
  { intros s Hs. split.
    - assert (Z : Rmin (X 0) Ki <= X s <= Rmax (X 0) Ki); [|rewrite X0 in Z; exact Z].
      apply (relax_to X (fun t => (Ki - clamp k0 k1 (X t)) * Rabs (sphP (clamp k0 k1 (X t)) (clamp g0 g1 (Y t)) Ki Gi al)) Ki 0 s Hs). intros t _. split; [apply HD|].
      rewrite <- Rmult_assoc. assert (S := clamp_sign k0 k1 Ki (X t) B1). set (p := Rabs _). assert (0 <= p) by apply Rabs_pos. nra.
    - assert (Z : Rmin (Y 0) Gi <= Y s <= Rmax (Y 0) Gi); [|rewrite Y0 in Z; exact Z].
      apply (relax_to Y (fun t => (Gi - clamp g0 g1 (Y t)) * Rabs (sphQ (clamp k0 k1 (X t)) (clamp g0 g1 (Y t)) Ki Gi al)) Gi 0 s Hs). intros t _. split; [apply HD|].
      rewrite <- Rmult_assoc. assert (S := clamp_sign g0 g1 Gi (Y t) B2). set (p := Rabs _). assert (0 <= p) by apply Rabs_pos. nra. }
  assert (HD' : forall s, 0 <= s -> derivable_pt_lim X s ((Ki - X s) * Rabs (sphP (X s) (Y s) Ki Gi al)) /\ derivable_pt_lim Y s ((Gi - Y s) * Rabs (sphQ (X s) (Y s) Ki Gi al))).
  { intros s Hs. destruct (In s Hs) as (I1 & I2). assert (Z := HD s). rewrite !clamp_id in Z by auto. exact Z. }
  assert (Pos : forall s, 0 <= s -> 0 < X s /\ 0 < Y s).
  { intros s Hs. split.
    - apply (keep_pos X (fun u => (Ki - X u) * Rabs (sphP (X u) (Y u) Ki Gi al)) M s Hs); [lra|]. intros u Hu. split; [apply (proj1 (HD' u ltac:(lra)))|]. destruct (In u ltac:(lra)) as (I1 & I2).
      assert (Z := BM _ _ (conj I1 I2)). cbv beta in Z. rewrite Rabs_Rabsolu in Z. set (p := Rabs _) in *. assert (0 <= p) by apply Rabs_pos. assert (0 <= Ki * p) by (apply Rmult_le_pos; auto). assert (0 <= (M - p) * X u) by (apply Rmult_le_pos; lra). lra.
    - apply (keep_pos Y (fun u => (Gi - Y u) * Rabs (sphQ (X u) (Y u) Ki Gi al)) M' s Hs); [lra|]. intros u Hu. split; [apply (proj2 (HD' u ltac:(lra)))|]. destruct (In u ltac:(lra)) as (I1 & I2).
      assert (Z := BM' _ _ (conj I1 I2)). cbv beta in Z. rewrite Rabs_Rabsolu in Z. set (p := Rabs _) in *. assert (0 <= p) by apply Rabs_pos. assert (0 <= Gi * p) by (apply Rmult_le_pos; auto). assert (0 <= (M' - p) * Y u) by (apply Rmult_le_pos; lra). lra. }
  rewrite <- X0, <- Y0. apply flow_traj. intros s Hs. destruct (Pos s Hs) as (P1 & P2). destruct (HD' s Hs) as (D1 & D2).
  destruct (PQ_all m (X s) (Y s) Ki Gi P1 P2 HKi HGi al Hal) as (_ & _ & Q1 & Q2). rewrite (Rabs_right (sphP _ _ _ _ _)) in D1 by lra. rewrite (Rabs_right (sphQ _ _ _ _ _)) in D2 by lra. auto.
Qed.
End Flow.

(** Empty inclusions: the ratio r = G / (K + 4/3 G) and ln G obey equations that are regular down to r = 0. *)
Section Dry.
Variables (m : mode) (al Km Gm : R).
Hypotheses (Hal : 0 < al <= 1) (HKm : 0 < Km) (HGm : 0 < Gm).
Let f := shape_f al.
Let th := shape_th al.
Definition dry_b (f th r : R) : R := 2 * (1 - r) * (th - f) - (3 - 4 * r) * (th * th).
Let b := dry_b f th.
Let q (r : R) := (2 / pF3 (-1) r f th + 2 / pF4 (-1) r f th + 4 / (3 * b r)) / 5.
Let p (r : R) := Rabs (pF1 (-1) r f th) / b r - r * q r.
Lemma dry_low r : 0 <= r <= 3/4 -> - f / 2 <= b r /\ th / 2 <= pF3 (-1) r f th /\ 3/8 <= pF4 (-1) r f th.
Proof.
  destruct (shape_range al Hal) as (T1 & T2 & T3). fold f th in T1, T2, T3. intros Hr. split; [|apply F34_low; auto; lra].
  unfold b, dry_b. assert (th * th <= 2/3 * th) by nra.
  assert ((3 - 4 * r) * (th * th) <= (3 - 4 * r) * (2/3 * th)) by (apply Rmult_le_compat_l; lra). assert (0 <= r * th) by (apply Rmult_le_pos; lra). assert (0 <= (3/4 - r) * (- f)) by (apply Rmult_le_pos; lra). lra.
Qed.
Lemma dry_lip : Lip 0 (3/4) 0 0 (fun r _ => q r) /\ Lip 0 (3/4) 0 0 (fun r _ => p r).
Proof.
  destruct (shape_range al Hal) as (T1 & T2 & T3). assert (T4 := shape_f_neg al Hal). fold f th in T1, T2, T3, T4.
  assert (H0 : 0 <= 3/4) by lra. assert (H1 : 0 <= 0) by lra.
  assert (L1 : Lip 0 (3/4) 0 0 (fun r _ => b r)) by (unfold b, dry_b; lip).
  assert (L2 : Lip 0 (3/4) 0 0 (fun r _ => pF3 (-1) r f th)) by (unfold pF3; lip).
  assert (L3 : Lip 0 (3/4) 0 0 (fun r _ => pF4 (-1) r f th)) by (unfold pF4; lip; apply away_const; lra).
  assert (L4 : Lip 0 (3/4) 0 0 (fun r _ => Rabs (pF1 (-1) r f th))) by (apply (Lip_abs _ _ _ _ (fun r _ => pF1 (-1) r f th)); unfold pF1; lip; apply away_const; lra).
  assert (A1 : away 0 (3/4) 0 0 (fun r _ => b r)) by (exists (- f / 2); split; [lra|intros K G (I & _); apply dry_low; auto]).
  assert (A2 : away 0 (3/4) 0 0 (fun r _ => pF3 (-1) r f th)) by (exists (th / 2); split; [lra|intros K G (I & _); apply dry_low; auto]).
  assert (A3 : away 0 (3/4) 0 0 (fun r _ => pF4 (-1) r f th)) by (exists (3/8); split; [lra|intros K G (I & _); apply dry_low; auto]).
  assert (LQ : Lip 0 (3/4) 0 0 (fun r _ => q r)).
  { unfold q. lip; try (apply away_const; lra); auto. apply (away_mul _ _ _ _ (fun _ _ => 3)); [apply away_const; lra|auto]. }
  split; [exact LQ|]. unfold p. lip; auto.
Qed.
Lemma dry_sph K G : 0 < K -> 0 < G -> let r := G / (K + 4/3*G) in 0 < r < 3/4 /\ r * sphP K G 0 0 al = pF1 (-1) r f th / b r /\ sphQ K G 0 0 al = q r.
Proof.
  intros HK HG r. destruct (shape_range al Hal) as (T1 & T2 & T3). assert (T4 := shape_f_neg al Hal). fold f th in T1, T2, T3, T4.
  assert (Hr : 0 < r < 3/4) by (unfold r; split; [apply Rdiv_lt_0_compat; lra|apply div_lt_iff; lra]).
  destruct (dry_low r ltac:(lra)) as (B1 & B3 & B4).
  destruct (sph_pq K G 0 0 al) as (-> & ->). fold f th r. replace (0 / G - 1) with (-1) by (unfold Rdiv; ring).
  assert (E2 : pF2 (-1) ((-1 - -1) / 3) r f th = r * b r) by (unfold pF2, b, dry_b; field).
  replace ((0 / K - 0 / G) / 3) with ((-1 - -1) / 3) by (field; lra).
  split; [exact Hr|]. split.
  - unfold pqP. rewrite E2. field. lra.
  - rewrite pqQ_alt by (rewrite ?E2; try lra; apply Rmult_integral_contrapositive; lra). rewrite E2. unfold q. field. lra.
Qed.
Lemma exists_dry : exists K G K' G', K 0 = Km /\ G 0 = Gm /\ dem_traj m 0 0 al K G K' G'.
Proof.
  destruct dry_lip as (LQ & LP). assert (H0 : 0 <= 3/4) by lra. assert (H1 : 0 <= 0) by lra.
  destruct (shape_range al Hal) as (T1 & T2 & T3). assert (T4 := shape_f_neg al Hal). fold f th in T1, T2, T3, T4.
  destruct (Lip_bound _ _ _ _ H0 H1 _ LQ) as (M & HM & BM). destruct (Lip_bound _ _ _ _ H0 H1 _ LP) as (M' & HM' & BM'). cbv beta in BM, BM'.
  set (r0 := Gm / (Km + 4/3*Gm)). assert (R0 : 0 < r0 < 3/4) by (unfold r0; split; [apply Rdiv_lt_0_compat; lra|apply div_lt_iff; lra]).
  destruct (picard_box 0 (3/4) 0 0 (fun r _ => (1 - 4/3 * r) * p r) (fun r _ => - q r) r0 (ln Gm) H0 H1) as (X & Y & X0 & Y0 & HD); [lip|lip|]. cbv beta in HD.
  assert (I1 : forall s, 0 <= s -> 0 <= X s).
  { intros s Hs. apply (keep_nonneg X (fun t => (1 - 4/3 * clamp 0 (3/4) (X t)) * p (clamp 0 (3/4) (X t))) s Hs); [lra|]. intros u Hu. split; [apply HD|]. intros Hn.
    replace (clamp 0 (3/4) (X u)) with 0 by (unfold clamp, Rmax, Rmin; repeat destruct Rle_dec; lra). unfold p. rewrite Rmult_0_l, Rmult_0_r, !Rminus_0_r, Rmult_1_l.
    destruct (dry_low 0 ltac:(lra)) as (B1 & _). apply le_div_iff; [lra|]. rewrite Rmult_0_l. apply Rabs_pos. }
  assert (I2 : forall s, 0 <= s -> X s <= 3/4).
  { intros s Hs. assert (Z : 0 <= 3/4 - X s); [|lra].
    apply (keep_nonneg (fun s => 3/4 - X s) (fun t => 0 - (1 - 4/3 * clamp 0 (3/4) (X t)) * p (clamp 0 (3/4) (X t))) s Hs); [lra|]. intros u Hu.
    split; [apply (derivable_pt_lim_minus (fun _ => 3/4) X); [apply derivable_pt_lim_const|apply HD]|]. intros Hn.
    replace (clamp 0 (3/4) (X u)) with (3/4) by (unfold clamp, Rmax, Rmin; repeat destruct Rle_dec; lra). lra. }
  assert (HD' : forall s, 0 <= s -> derivable_pt_lim X s ((1 - 4/3 * X s) * p (X s)) /\ derivable_pt_lim Y s (- q (X s))).
  { intros s Hs. assert (Z := HD s). rewrite !clamp_id in Z by auto. exact Z. }
  assert (Pos : forall s, 0 <= s -> 0 < X s < 3/4).
  { intros s Hs. split.
    - apply (keep_pos X (fun s => (1 - 4/3 * X s) * p (X s)) M s Hs); [lra|]. intros u Hu. split; [apply HD'; lra|].
      assert (J1 := I1 u ltac:(lra)). assert (J2 := I2 u ltac:(lra)). assert (Z := BM (X u) 0 (conj (conj J1 J2) (conj H1 H1))).
      destruct (dry_low (X u) ltac:(lra)) as (B1 & _). unfold p. set (a := Rabs (pF1 _ _ _ _) / b (X u)). assert (0 <= a) by (apply le_div_iff; [lra|rewrite Rmult_0_l; apply Rabs_pos]).
      assert (Z2 := Rle_abs (q (X u))). set (y := X u) in *. set (w := q y) in *. assert (0 <= (1 - 4/3 * y) * a) by (apply Rmult_le_pos; lra).
      assert (V : (1 - 4/3 * y) * w <= M). { apply Rle_trans with ((1 - 4/3 * y) * M); [apply Rmult_le_compat_l; lra|]. assert (0 <= y * M) by (apply Rmult_le_pos; lra). lra. }
      assert (0 <= (M - (1 - 4/3 * y) * w) * y) by (apply Rmult_le_pos; lra). lra.
    - assert (Z : 0 < 3/4 - X s); [|lra].
      apply (keep_pos (fun s => 3/4 - X s) (fun s => 0 - (1 - 4/3 * X s) * p (X s)) (4/3 * M') s Hs); [lra|]. intros u Hu.
      split; [apply (derivable_pt_lim_minus (fun _ => 3/4) X); [apply derivable_pt_lim_const|apply HD'; lra]|].
      assert (J1 := I1 u ltac:(lra)). assert (J2 := I2 u ltac:(lra)). assert (Z := BM' (X u) 0 (conj (conj J1 J2) (conj H1 H1))). assert (Z2 := Rle_abs (p (X u))).
      assert (0 <= (M' - p (X u)) * (3/4 - X u)) by (apply Rmult_le_pos; lra). lra. }
  assert (E1 : exp (Y 0) = Gm) by (rewrite Y0; apply exp_ln; auto).
  assert (E0 : exp (Y 0) * (1 / X 0 - 4/3) = Km) by (rewrite E1, X0; unfold r0; field; lra).
  destruct (flow_traj m 0 0 al H1 H1 Hal (fun s => exp (Y s) * (1 / X s - 4/3)) (fun s => exp (Y s))) as (K & G & K' & G' & A1 & A2 & A3);
    [|exists K, G, K', G'; split; [rewrite A1; exact E0|split; [rewrite A2; exact E1|exact A3]]].
  intros s Hs. assert (P := Pos s Hs). assert (EP := exp_pos (Y s)). destruct (HD' s Hs) as (D1 & D2).
  assert (XP : 0 < exp (Y s) * (1 / X s - 4/3)). { apply Rmult_lt_0_compat; [exact EP|]. assert (4/3 < 1 / X s) by (apply lt_div_iff; lra). lra. }
  assert (DY : derivable_pt_lim (fun s => exp (Y s)) s (exp (Y s) * - q (X s))) by (apply (derivable_pt_lim_comp Y exp); [exact D2|apply derivable_pt_lim_exp]).
  destruct (dry_sph _ _ XP EP) as (_ & S1 & S2).
  replace (exp (Y s) / (exp (Y s) * (1 / X s - 4/3) + 4/3 * exp (Y s))) with (X s) in S1, S2 by (field; lra).
  split; [exact XP|]. split; [exact EP|]. split.
  - assert (SP : sphP (exp (Y s) * (1 / X s - 4/3)) (exp (Y s)) 0 0 al = pF1 (-1) (X s) f th / b (X s) / X s) by (rewrite <- S1; field; lra).
    rewrite SP. assert (PF : 0 < pF1 (-1) (X s) f th) by (apply pos_F1; auto; lra). unfold p in D1. rewrite (Rabs_right (pF1 _ _ _ _)) in D1 by lra.
    destruct (dry_low (X s) ltac:(lra)) as (B1 & _). set (a := pF1 (-1) (X s) f th / b (X s)) in *. set (w := q (X s)) in *.
    apply is_derive_Reals. apply is_derive_Reals in D1. apply is_derive_Reals in DY.
    evar_last. { apply (is_derive_mult (fun s => exp (Y s)) (fun s => 1 / X s - 4/3) s); [exact DY| |intros; apply Rmult_comm]. auto_derive; [split; [eexists; exact D1|lra]|reflexivity]. }
    replace (Derive (fun x : R => X x) s) with ((1 - 4/3 * X s) * (a - X s * w)) by (symmetry; apply is_derive_unique; exact D1). unfold plus, mult; cbn -[Rdiv pow]. field. lra.
  - rewrite S2. replace ((0 - exp (Y s)) * q (X s)) with (exp (Y s) * - q (X s)) by ring. exact DY.
Qed.
End Dry.

Lemma dem_exists m Km Gm Ki Gi al : 0 < Km -> 0 < Gm -> 0 <= Ki -> 0 <= Gi -> 0 < al <= 1 -> exists K G K' G', K 0 = Km /\ G 0 = Gm /\ dem_traj m Ki Gi al K G K' G'.
Proof.
  intros HK HG HKi HGi Ha. destruct (Req_dec Ki 0) as [->|N]; [|apply exists_filled; auto; lra]. destruct (Req_dec Gi 0) as [->|N]; [apply exists_dry; auto|apply exists_filled; auto; lra].
Qed.
