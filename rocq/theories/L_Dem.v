(** * L_Dem: exact trajectories of the differential scheme are unique. *)
From Coquelicot Require Import Coquelicot.
From Verif Require Import Fl RealLemmas M_EM Spec Spec2 Spec12 L_EM5 L_EM6 L_EM8 L_Shape.
Open Scope R_scope.

(** ** Functions of two moduli that are Lipschitz on a box *)
Section Box.
Variables (k0 k1 g0 g1 : R).
Hypotheses (Hk : k0 <= k1) (Hg : g0 <= g1).
Definition inbox (K G : R) : Prop := k0 <= K <= k1 /\ g0 <= G <= g1.
Definition Lip (u : R -> R -> R) : Prop :=
  exists L, 0 <= L /\ forall K G K' G', inbox K G -> inbox K' G' -> Rabs (u K G - u K' G') <= L * (Rabs (K - K') + Rabs (G - G')).
Lemma Lip_bound u : Lip u -> exists M, 0 <= M /\ forall K G, inbox K G -> Rabs (u K G) <= M.
Proof.
  intros (L & HL & H). exists (Rabs (u k0 g0) + L * ((k1 - k0) + (g1 - g0))). assert (A := Rabs_pos (u k0 g0)).
  assert (B : 0 <= L * ((k1 - k0) + (g1 - g0))) by (apply Rmult_le_pos; lra). split; [lra|]. intros K G I.
  assert (I0 : inbox k0 g0) by (split; lra). specialize (H K G k0 g0 I I0). destruct I as (IK & IG).
  rewrite (Rabs_right (K - k0)), (Rabs_right (G - g0)) in H by lra.
  replace (u K G) with ((u K G - u k0 g0) + u k0 g0) by ring. eapply Rle_trans; [apply Rabs_triang|].
  assert (L * (K - k0 + (G - g0)) <= L * ((k1 - k0) + (g1 - g0))) by (apply Rmult_le_compat_l; lra). lra.
Qed.
Lemma Lip_const c : Lip (fun _ _ => c).
Proof. exists 0. split; [lra|]. intros. replace (c - c) with 0 by ring. rewrite Rabs_R0. lra. Qed.
Lemma Lip_K : Lip (fun K _ => K).
Proof. exists 1. split; [lra|]. intros. assert (A := Rabs_pos (G - G')). lra. Qed.
Lemma Lip_G : Lip (fun _ G => G).
Proof. exists 1. split; [lra|]. intros. assert (A := Rabs_pos (K - K')). lra. Qed.
Lemma Lip_add u v : Lip u -> Lip v -> Lip (fun K G => u K G + v K G).
Proof.
  intros (L & HL & H) (M & HM & H'). exists (L + M). split; [lra|]. intros K G K' G' I I'. specialize (H K G K' G' I I'). specialize (H' K G K' G' I I').
  replace (u K G + v K G - (u K' G' + v K' G')) with ((u K G - u K' G') + (v K G - v K' G')) by ring. eapply Rle_trans; [apply Rabs_triang|]. lra.
Qed.
Lemma Lip_opp u : Lip u -> Lip (fun K G => - u K G).
Proof.
  intros (L & HL & H). exists L. split; [exact HL|]. intros K G K' G' I I'. replace (- u K G - - u K' G') with (- (u K G - u K' G')) by ring. rewrite Rabs_Ropp. auto.
Qed.
Lemma Lip_sub u v : Lip u -> Lip v -> Lip (fun K G => u K G - v K G).
Proof. intros H H'. exact (Lip_add u _ H (Lip_opp v H')). Qed.
Lemma Lip_mul u v : Lip u -> Lip v -> Lip (fun K G => u K G * v K G).
Proof.
  intros Hu Hv. destruct (Lip_bound u Hu) as (A & HA & BA). destruct (Lip_bound v Hv) as (B & HB & BB). destruct Hu as (L & HL & H). destruct Hv as (M & HM & H').
  exists (L * B + A * M). split; [assert (0 <= L * B) by (apply Rmult_le_pos; lra); assert (0 <= A * M) by (apply Rmult_le_pos; lra); lra|].
  intros K G K' G' I I'. specialize (H K G K' G' I I'). specialize (H' K G K' G' I I'). specialize (BA K' G' I'). specialize (BB K G I). set (e := Rabs (K - K') + Rabs (G - G')) in *.
  replace (u K G * v K G - u K' G' * v K' G') with ((u K G - u K' G') * v K G + u K' G' * (v K G - v K' G')) by ring. eapply Rle_trans; [apply Rabs_triang|]. rewrite !Rabs_mult.
  assert (X : Rabs (u K G - u K' G') * Rabs (v K G) <= (L * e) * B) by (apply Rmult_le_compat; auto using Rabs_pos).
  assert (Y : Rabs (u K' G') * Rabs (v K G - v K' G') <= A * (M * e)) by (apply Rmult_le_compat; auto using Rabs_pos). lra.
Qed.
Definition away (u : R -> R -> R) : Prop := exists d, 0 < d /\ forall K G, inbox K G -> d <= u K G.
Lemma Lip_inv u : Lip u -> away u -> Lip (fun K G => / u K G).
Proof.
  intros (L & HL & H) (d & Hd & D). assert (DD : 0 < d * d) by (apply Rmult_lt_0_compat; lra).
  exists (L / (d * d)). split; [apply Rmult_le_pos; [lra|left; apply Rinv_0_lt_compat; lra]|].
  intros K G K' G' I I'. specialize (H K G K' G' I I'). assert (D1 := D K G I). assert (D2 := D K' G' I'). set (e := Rabs (K - K') + Rabs (G - G')) in *.
  replace (/ u K G - / u K' G') with (- (u K G - u K' G') / (u K G * u K' G')) by (field; lra). unfold Rdiv. rewrite Rabs_mult, Rabs_Ropp, Rabs_inv.
  assert (X : d * d <= u K G * u K' G') by (apply Rmult_le_compat; lra). rewrite (Rabs_right (u K G * u K' G')) by lra.
  assert (Y : / (u K G * u K' G') <= / (d * d)) by (apply Rinv_le_contravar; lra). assert (0 < / (u K G * u K' G')) by (apply Rinv_0_lt_compat; lra).
  replace (L * / (d * d) * e) with (L * e * / (d * d)) by ring. apply Rmult_le_compat; auto using Rabs_pos. lra.
Qed.
Lemma Lip_div u v : Lip u -> Lip v -> away v -> Lip (fun K G => u K G / v K G).
Proof. intros H H' N. exact (Lip_mul u _ H (Lip_inv v H' N)). Qed.
Lemma away_const c : 0 < c -> away (fun _ _ => c).
Proof. intros H. exists c. split; [exact H|]. intros; lra. Qed.
Lemma away_mul u v : away u -> away v -> away (fun K G => u K G * v K G).
Proof.
  intros (a & Ha & A) (b & Hb & B). exists (a * b). split; [apply Rmult_lt_0_compat; lra|]. intros K G I. specialize (A K G I). specialize (B K G I). apply Rmult_le_compat; lra.
Qed.
End Box.
Ltac lip := repeat match goal with
  | |- Lip _ _ _ _ _ => eassumption
  | |- Lip _ _ _ _ (fun _ _ => ?c) => apply Lip_const
  | |- Lip _ _ _ _ (fun K _ => K) => apply Lip_K
  | |- Lip _ _ _ _ (fun _ G => G) => apply Lip_G
  | |- Lip _ _ _ _ (fun K G => _ + _) => apply Lip_add
  | |- Lip _ _ _ _ (fun K G => _ - _) => apply Lip_sub
  | |- Lip _ _ _ _ (fun K G => - _) => apply Lip_opp
  | |- Lip _ _ _ _ (fun K G => _ * _) => apply Lip_mul
  | |- Lip _ _ _ _ (fun K G => _ / _) => apply Lip_div
  | |- Lip _ _ _ _ _ => eassumption
  | |- _ <= _ => eassumption
  end.

Section Two.
Variables (T : R) (K1 G1 K2 G2 : R -> R).
Hypothesis HT : 0 <= T.
Definition gap (t : R) : R := Rabs (K1 t - K2 t) + Rabs (G1 t - G2 t).
(** Gronwall: curves with the same start and slopes controlled by their distance coincide. *)
Lemma coincide K1' G1' K2' G2' L : 0 <= L -> (forall t, 0 <= t <= T -> Rabs (K1' t - K2' t) <= L * gap t /\ Rabs (G1' t - G2' t) <= L * gap t) -> K1 0 = K2 0 -> G1 0 = G2 0 ->
  (forall t, 0 <= t <= T -> derivable_pt_lim K1 t (K1' t) /\ derivable_pt_lim G1 t (G1' t) /\ derivable_pt_lim K2 t (K2' t) /\ derivable_pt_lim G2 t (G2' t)) ->
  K1 T = K2 T /\ G1 T = G2 T.
Proof.
  intros HL HH EK EG D.
  set (M := L). assert (HM : 0 <= M) by exact HL. set (c := 2 * L + 2 * M). set (w := fun t => (K1 t - K2 t)^2 + (G1 t - G2 t)^2).
  set (w' := fun t => 2 * (K1 t - K2 t) * (K1' t - K2' t) + 2 * (G1 t - G2 t) * (G1' t - G2' t)).
  assert (Dw : forall t, 0 <= t <= T -> derivable_pt_lim w t (w' t)).
  { intros t Ht. destruct (D t Ht) as (A & B & C & E). unfold w, w'.
    replace (2 * (K1 t - K2 t) * (K1' t - K2' t) + 2 * (G1 t - G2 t) * (G1' t - G2' t))
      with ((2 * (K1 t - K2 t) ^ 1) * (K1' t - K2' t) + (2 * (G1 t - G2 t) ^ 1) * (G1' t - G2' t)) by ring.
    apply derivable_pt_lim_plus.
    - apply (derivable_pt_lim_comp (fun t => K1 t - K2 t) (fun x => x ^ 2) t (K1' t - K2' t) (2 * (K1 t - K2 t)^1)); [apply derivable_pt_lim_minus; auto|].
      exact (derivable_pt_lim_pow (K1 t - K2 t) 2).
    - apply (derivable_pt_lim_comp (fun t => G1 t - G2 t) (fun x => x ^ 2) t (G1' t - G2' t) (2 * (G1 t - G2 t)^1)); [apply derivable_pt_lim_minus; auto|].
      exact (derivable_pt_lim_pow (G1 t - G2 t) 2). }
  assert (Bw : forall t, 0 <= t <= T -> w' t <= 2 * c * w t).
  { intros t Ht. destruct (HH t Ht) as (H & H'). fold M in H'. unfold gap in H, H'. unfold w', w, c.
    set (x := K1 t - K2 t) in *. set (y := G1 t - G2 t) in *. set (p := K1' t - K2' t) in *. set (q := G1' t - G2' t) in *.
    assert (X1 : x * p <= Rabs x * (L * (Rabs x + Rabs y))). { eapply Rle_trans; [apply Rle_abs|]. rewrite Rabs_mult. apply Rmult_le_compat_l; [apply Rabs_pos|exact H]. }
    assert (Y1 : y * q <= Rabs y * (M * (Rabs x + Rabs y))). { eapply Rle_trans; [apply Rle_abs|]. rewrite Rabs_mult. apply Rmult_le_compat_l; [apply Rabs_pos|exact H']. }
    assert (Ex : x^2 = Rabs x ^ 2) by (rewrite RPow_abs; symmetry; apply Rabs_right; apply Rle_ge, pow2_ge_0).
    assert (Ey : y^2 = Rabs y ^ 2) by (rewrite RPow_abs; symmetry; apply Rabs_right; apply Rle_ge, pow2_ge_0).
    rewrite Ex, Ey. assert (Ax := Rabs_pos x). assert (Ay := Rabs_pos y). set (a := Rabs x) in *. set (b := Rabs y) in *.
    assert (0 <= L * (a - b)^2) by (apply Rmult_le_pos; [lra|apply pow2_ge_0]). assert (0 <= M * (a - b)^2) by (apply Rmult_le_pos; [lra|apply pow2_ge_0]).
    assert (0 <= L * a^2) by (apply Rmult_le_pos; [lra|apply pow2_ge_0]). assert (0 <= L * b^2) by (apply Rmult_le_pos; [lra|apply pow2_ge_0]).
    assert (0 <= M * a^2) by (apply Rmult_le_pos; [lra|apply pow2_ge_0]). assert (0 <= M * b^2) by (apply Rmult_le_pos; [lra|apply pow2_ge_0]).
    nra. }
  assert (W : - (w 0 * exp (- (2 * c) * 0)) <= - (w T * exp (- (2 * c) * T))).
  { apply (nondec (fun t => - (w t * exp (- (2 * c) * t))) (fun t => - ((w' t - 2 * c * w t) * exp (- (2 * c) * t))) 0 T HT). intros t Ht. split.
    - specialize (Dw t Ht). apply is_derive_Reals in Dw. apply is_derive_Reals. evar_last. { auto_derive; [eexists; exact Dw|reflexivity]. }
      replace (Derive (fun x : R => w x) t) with (w' t) by (symmetry; apply is_derive_unique; exact Dw). ring.
    - specialize (Bw t Ht). assert (E := exp_pos (- (2 * c) * t)). assert (0 <= (2 * c * w t - w' t) * exp (- (2 * c) * t)) by (apply Rmult_le_pos; lra). lra. }
  assert (W0 : w 0 = 0) by (unfold w; rewrite EK, EG; ring). rewrite W0 in W. assert (E := exp_pos (- (2 * c) * T)).
  assert (Z : w T <= 0). { apply Rnot_lt_le. intros C. assert (0 < w T * exp (- (2 * c) * T)) by (apply Rmult_lt_0_compat; lra). lra. }
  unfold w in Z. assert (A := pow2_ge_0 (K1 T - K2 T)). assert (B := pow2_ge_0 (G1 T - G2 T)).
  assert (A0 : (K1 T - K2 T)^2 = 0) by lra. assert (B0 : (G1 T - G2 T)^2 = 0) by lra.
  rewrite <- Rsqr_pow2 in A0, B0. apply Rsqr_0_uniq in A0, B0. lra.
Qed.
End Two.

(** ** Trajectories of the differential scheme *)
Definition dem_traj (m : mode) (Ki Gi al : R) (K G K' G' : R -> R) : Prop :=
  forall t, 0 <= t < 1 -> 0 < K t /\ 0 < G t /\ derivable_pt_lim K t (K' t) /\ derivable_pt_lim G t (G' t) /\
    EM_DEM m (Fin (K t)) (Fin (G t)) (Fin t) (Fin Gi, Fin Ki, al) = Ret (Fin (K' t), Fin (G' t)).
Definition shape_f (al : R) : R := if Req_EM_T al 1 then -(2/5) else obl_f al.
Definition shape_th (al : R) : R := if Req_EM_T al 1 then 2/3 else obl_theta al.
Lemma shape_range al : 0 < al <= 1 -> 0 < shape_th al <= 2/3 /\ shape_f al <= 0 /\ 0 <= shape_f al + shape_th al.
Proof.
  intros H. unfold shape_f, shape_th. destruct (Req_EM_T al 1); [lra|]. destruct (obl_bounds al ltac:(lra)) as (? & ? & ?). assert (0 < al^2) by nra. lra.
Qed.
Lemma sph_pq Km Gm Ki Gi al : sphP Km Gm Ki Gi al = pqP (Gi / Gm - 1) ((Ki / Km - Gi / Gm) / 3) (Gm / (Km + 4/3*Gm)) (shape_f al) (shape_th al) /\
  sphQ Km Gm Ki Gi al = pqQ (Gi / Gm - 1) ((Ki / Km - Gi / Gm) / 3) (Gm / (Km + 4/3*Gm)) (shape_f al) (shape_th al).
Proof. unfold sphP, sphQ, shape_f, shape_th. destruct (Req_EM_T al 1); auto. Qed.
Lemma sph_dens Km Gm Ki Gi al : 0 < Km -> 0 < Gm -> 0 <= Ki -> 0 <= Gi -> 0 < al <= 1 ->
  let A := Gi / Gm - 1 in let B := (Ki / Km - Gi / Gm) / 3 in let r := Gm / (Km + 4/3*Gm) in
  0 < pF2 A B r (shape_f al) (shape_th al) /\ 0 < pF3 A r (shape_f al) (shape_th al) /\ 0 < pF4 A r (shape_f al) (shape_th al).
Proof.
  intros HK HG HKi HGi H A B r. destruct (shape_range al H) as (B1 & B2 & B3).
  assert (HA := obl_A Gm Gi HG HGi). assert (Hk := obl_k Km Gm Ki Gi HK HKi). assert (Hr := obl_r Km Gm HK HG). fold A in HA. fold A B in Hk. fold r in Hr.
  repeat split; [|apply pos_F3; auto|apply pos_F4; auto]. replace B with ((A + 3 * B - A) / 3) by field. apply pos_F2; auto.
Qed.

Lemma shape_f_neg al : 0 < al <= 1 -> shape_f al < 0.
Proof.
  intros H. unfold shape_f. destruct (Req_EM_T al 1); [lra|]. destruct (obl_bounds al ltac:(lra)) as (? & ? & ?). assert (0 < al^2) by nra. lra.
Qed.
(** A lower bound of the determinant, up to and including the limits r = 0 and r = 3/4. *)
Lemma F2_low A k r f th : -1 <= A -> -1 <= k -> 0 <= r <= 3/4 -> 0 < th <= 2/3 -> f <= 0 -> 0 <= f + th ->
  - f * (r / 2 + 3/8 * ((k + 1) * (1 - 4/3 * r))) <= pF2 A ((k - A) / 3) r f th.
Proof.
  intros HA Hk Hr Ht Hf Hft.
  set (W := f * (1 - r) + th * (1 + r - 2 * r * th)).
  set (b := 2 * (1 - r) * (th - f) - (3 - 4 * r) * th^2).
  set (c1 := r * (2 * (1 - r) * (f - th) + (3 - 4 * r) * th^2 + 4/3)).
  set (c3 := (3/2 - 2 * r) * W).
  replace (pF2 A ((k - A) / 3) r f th) with (r * b + (A + 1) * c1 + (k + 1) * ((1 - 4/3 * r) * (1 - 3/2 * W)) + (A + 1) * (k + 1) * c3)
    by (unfold pF2, b, c1, c3, W; field).
  assert (W0 : 0 <= W). { unfold W. assert (0 <= (f + th) * (1 - r)) by (apply Rmult_le_pos; lra). assert (0 <= th * (2 * r * (1 - th))) by (repeat apply Rmult_le_pos; lra). lra. }
  assert (W1 : - f * (3/8) <= 1 - 3/2 * W). { unfold W. assert (f * (1 - r) <= f * (1/4)) by nra. assert (X : th * (1 + r - 2 * r * th) <= 2/3); [|lra].
    assert (0 <= (1 - 4/3 * r) * (2/3 - th)) by (apply Rmult_le_pos; lra).
    assert (0 <= 4/3 * r * (2/3 - 7/4 * th + 3/2 * th^2)); [|lra]. apply Rmult_le_pos; [lra|]. assert (0 <= (th - 7/12)^2) by apply pow2_ge_0. lra. }
  assert (C0 : - f / 2 <= b). { unfold b. assert (th^2 <= 2/3 * th) by nra.
    assert ((3 - 4 * r) * th^2 <= (3 - 4 * r) * (2/3 * th)) by (apply Rmult_le_compat_l; lra). assert (0 <= r * th) by (apply Rmult_le_pos; lra). assert (0 <= (3/4 - r) * (- f)) by (apply Rmult_le_pos; lra). lra. }
  assert (C1 : 0 <= c1). { unfold c1. apply Rmult_le_pos; [lra|]. assert (0 <= (1 - r) * (f + th)) by (apply Rmult_le_pos; lra).
    assert (0 <= (th - 2/3)^2) by apply pow2_ge_0. assert (0 <= r * th * (1 - th)) by (repeat apply Rmult_le_pos; lra). lra. }
  assert (C3 : 0 <= c3) by (unfold c3; apply Rmult_le_pos; lra).
  assert (0 <= (A + 1) * c1) by (apply Rmult_le_pos; lra). assert (0 <= (A + 1) * (k + 1) * c3) by (apply Rmult_le_pos; [apply Rmult_le_pos; lra|lra]).
  assert (r * (- f / 2) <= r * b) by (apply Rmult_le_compat_l; lra).
  assert ((k + 1) * ((1 - 4/3 * r) * (- f * (3/8))) <= (k + 1) * ((1 - 4/3 * r) * (1 - 3/2 * W))) by (apply Rmult_le_compat_l; [lra|apply Rmult_le_compat_l; lra]). lra.
Qed.
Lemma F34_low A r f th : -1 <= A -> 0 <= r <= 3/4 -> 0 < th <= 2/3 -> f <= 0 -> 0 <= f + th -> th / 2 <= pF3 A r f th /\ 3/8 <= pF4 A r f th.
Proof.
  intros HA Hr T1 T2 T3. split.
  - assert (0 <= (f + th) * (1 - r)) by (apply Rmult_le_pos; lra).
    assert (f * (1 - r) <= 0) by nra. assert (0 <= r * th) by (apply Rmult_le_pos; lra).
    unfold pF3. replace (1 + A * (1 - f - 3/2 * th + r * (f + th))) with ((f * (1 - r) + th * (3/2 - r)) + (A + 1) * (1 - (f * (1 - r) + th * (3/2 - r)))) by field.
    assert (0 <= (A + 1) * (1 - (f * (1 - r) + th * (3/2 - r)))) by (apply Rmult_le_pos; lra). lra.
  - set (w := f + 3 * th - r * (f - th)).
    assert (W : 0 <= w <= 5/2). { unfold w. assert (0 <= (f + th) * (1 - r)) by (apply Rmult_le_pos; lra). assert (f * (1 - r) <= 0) by nra. assert (0 <= r * th <= 3/4 * (2/3)) by (split; [apply Rmult_le_pos; lra|apply Rmult_le_compat; lra]). lra. }
    unfold pF4. fold w. replace (1 + A / 4 * w) with ((1 - w / 4) + (A + 1) * (w / 4)) by field. assert (0 <= (A + 1) * (w / 4)) by (apply Rmult_le_pos; lra). lra.
Qed.

(** The strain concentration factors are Lipschitz on every box of positive moduli; the box may reach bulk modulus 0 if the
    inclusion's is 0, or shear modulus 0 if the inclusion is a fluid. *)
Section SphLip.
Variables (k0 k1 g0 g1 Ki Gi al : R).
Hypotheses (Hk0 : 0 <= k0) (Hk : k0 <= k1) (Hg0 : 0 <= g0) (Hg : g0 <= g1) (HKi : 0 <= Ki) (HGi : 0 <= Gi) (Hal : 0 < al <= 1).
Hypotheses (HbK : 0 < k0 \/ Ki = 0) (HbG : 0 < g0 \/ Gi = 0) (HbM : 0 < k0 \/ 0 < g0) (HbF : 0 < g0 \/ 0 < Ki).
Notation LIP := (Lip k0 k1 g0 g1).
Notation AWAY := (away k0 k1 g0 g1).
Let f := shape_f al.
Let th := shape_th al.
Let A (K G : R) := Gi / G - 1.
Let B (K G : R) := (Ki / K - Gi / G) / 3.
Let r (K G : R) := G / (K + 4/3*G).
Lemma Lip_zero (u : R -> R -> R) : (forall K G, u K G = 0) -> LIP u.
Proof. intros E. exists 0. split; [lra|]. intros. rewrite !E. replace (0 - 0) with 0 by ring. rewrite Rabs_R0. lra. Qed.
Lemma LGi : LIP (fun _ G => Gi / G).
Proof.
  destruct HbG as [P|E].
  - lip. exists g0. split; [exact P|]. intros K G (_ & ? & _). lra.
  - apply Lip_zero. intros. rewrite E. unfold Rdiv. ring.
Qed.
Lemma LKi : LIP (fun K _ => Ki / K).
Proof.
  destruct HbK as [P|E].
  - lip. exists k0. split; [exact P|]. intros K G ((? & _) & _). lra.
  - apply Lip_zero. intros. rewrite E. unfold Rdiv. ring.
Qed.
Lemma sum_away : AWAY (fun K G => K + 4/3*G).
Proof. exists (k0 + 4/3*g0). split; [destruct HbM; lra|]. intros K G (? & ?). lra. Qed.
Lemma LA : LIP A.
Proof. unfold A. assert (X := LGi). lip. Qed.
Lemma LB : LIP B.
Proof. unfold B. assert (X := LGi). assert (Y := LKi). apply Lip_div; [auto|auto| |lip|apply away_const; lra]. apply Lip_sub; auto. Qed.
Lemma Lr : LIP r.
Proof. unfold r. assert (X := sum_away). lip. exact X. Qed.
Lemma LF : LIP (fun K G => pF1 (A K G) (r K G) f th) /\ LIP (fun K G => pF2 (A K G) (B K G) (r K G) f th) /\ LIP (fun K G => pF3 (A K G) (r K G) f th) /\ LIP (fun K G => pF4 (A K G) (r K G) f th) /\
  LIP (fun K G => pF5 (A K G) (B K G) (r K G) f th) /\ LIP (fun K G => pF6 (A K G) (B K G) (r K G) f th) /\ LIP (fun K G => pF7 (A K G) (B K G) (r K G) f th) /\ LIP (fun K G => pF8 (A K G) (B K G) (r K G) f th) /\
  LIP (fun K G => pF9 (A K G) (B K G) (r K G) f th).
Proof.
  assert (X := LA). assert (Y := LB). assert (Z := Lr). change (LIP (fun K G => A K G)) in X. change (LIP (fun K G => B K G)) in Y. change (LIP (fun K G => r K G)) in Z.
  unfold pF1, pF2, pF3, pF4, pF5, pF6, pF7, pF8, pF9.
  repeat match goal with |- _ /\ _ => split end; lip; apply away_const; lra.
Qed.
Lemma ratio_pos x y : 0 <= x -> 0 < y \/ x = 0 -> 0 <= x / y.
Proof. intros H [P|E]; [apply le_div_iff; lra|]. rewrite E. unfold Rdiv. lra. Qed.
Lemma box_facts K G : inbox k0 k1 g0 g1 K G -> -1 <= A K G /\ -1 <= A K G + 3 * B K G /\ 0 <= r K G <= 3/4 /\
  (g0 / 2 + 3/8 * Ki) / (k1 + 4/3*g1) <= r K G / 2 + 3/8 * ((A K G + 3 * B K G + 1) * (1 - 4/3 * r K G)).
Proof.
  intros ((A1 & A2) & A3 & A4). assert (P : 0 < K + 4/3*G) by (destruct HbM; lra).
  assert (X : 0 <= Gi / G) by (apply ratio_pos; [auto|destruct HbG; [left; lra|auto]]).
  assert (Y : 0 <= Ki / K) by (apply ratio_pos; [auto|destruct HbK; [left; lra|auto]]).
  unfold A, B, r. split; [lra|]. split; [lra|]. split; [split; [apply le_div_iff; lra|apply div_le_iff; lra]|].
  assert (E : (Gi / G - 1 + 3 * ((Ki / K - Gi / G) / 3) + 1) * (1 - 4/3 * (G / (K + 4/3*G))) = Ki / (K + 4/3*G)).
  { replace (Gi / G - 1 + 3 * ((Ki / K - Gi / G) / 3) + 1) with (Ki / K) by lra. replace (1 - 4/3 * (G / (K + 4/3*G))) with (K / (K + 4/3*G)) by (field; lra).
    destruct (Req_dec K 0) as [Z|N]; [rewrite Z|field; split; [lra|exact N]]. destruct HbK as [Q|Q]; [lra|rewrite Q; unfold Rdiv; ring]. }
  rewrite E. replace (G / (K + 4/3*G) / 2 + 3/8 * (Ki / (K + 4/3*G))) with ((G / 2 + 3/8 * Ki) / (K + 4/3*G)) by (field; lra).
  assert (0 <= g0 / 2 + 3/8 * Ki) by lra.
  apply Rle_trans with ((g0 / 2 + 3/8 * Ki) / (K + 4/3*G)).
  - unfold Rdiv. apply Rmult_le_compat_l; [lra|]. apply Rinv_le_contravar; lra.
  - unfold Rdiv. apply Rmult_le_compat_r; [left; apply Rinv_0_lt_compat; lra|lra].
Qed.
Lemma away_F3 : AWAY (fun K G => pF3 (A K G) (r K G) f th).
Proof.
  destruct (shape_range al Hal) as (T1 & T2 & T3). fold f th in T1, T2, T3. exists (th / 2). split; [lra|]. intros K G I. destruct (box_facts K G I) as (HA & _ & HR & _). apply F34_low; auto.
Qed.
Lemma away_F4 : AWAY (fun K G => pF4 (A K G) (r K G) f th).
Proof.
  destruct (shape_range al Hal) as (T1 & T2 & T3). fold f th in T1, T2, T3. exists (3/8). split; [lra|]. intros K G I. destruct (box_facts K G I) as (HA & _ & HR & _). apply F34_low; auto.
Qed.
Lemma away_F2 : AWAY (fun K G => pF2 (A K G) (B K G) (r K G) f th).
Proof.
  destruct (shape_range al Hal) as (T1 & T2 & T3). assert (T4 := shape_f_neg al Hal). fold f th in T1, T2, T3, T4.
  exists (- f * ((g0 / 2 + 3/8 * Ki) / (k1 + 4/3*g1))). split.
  - apply Rmult_lt_0_compat; [lra|]. apply Rdiv_lt_0_compat; [destruct HbF; lra|destruct HbM; lra].
  - intros K G I. destruct (box_facts K G I) as (HA & HB & HR & X).
    set (a := A K G) in *. set (q := r K G) in *. set (k := a + 3 * B K G) in *. replace (B K G) with ((k - a) / 3) by (unfold k; field).
    apply Rle_trans with (2 := F2_low a k q f th HA HB HR T1 T2 T3). apply Rmult_le_compat_l; lra.
Qed.
Lemma Lip_sphP : LIP (fun K G => sphP K G Ki Gi al).
Proof.
  destruct LF as (F1 & F2 & _). destruct (Lip_div k0 k1 g0 g1 Hk Hg _ _ F1 F2 away_F2) as (L & HL & H). exists L. split; [exact HL|]. intros K G K' G' I I'.
  rewrite (proj1 (sph_pq K G Ki Gi al)), (proj1 (sph_pq K' G' Ki Gi al)). exact (H K G K' G' I I').
Qed.
Lemma Lip_sphQ : LIP (fun K G => sphQ K G Ki Gi al).
Proof.
  destruct LF as (F1 & F2 & F3 & F4 & F5 & F6 & F7 & F8 & F9).
  assert (X : LIP (fun K G => pqQ (A K G) (B K G) (r K G) f th)).
  { unfold pqQ. lip; try exact away_F3; try exact away_F4; try (apply away_const; lra). apply away_mul; [exact away_F2|exact away_F4]. }
  destruct X as (L & HL & H). exists L. split; [exact HL|]. intros K G K' G' I I'.
  rewrite (proj2 (sph_pq K G Ki Gi al)), (proj2 (sph_pq K' G' Ki Gi al)). exact (H K G K' G' I I').
Qed.
Lemma Lip_rhs : exists L, 0 <= L /\ forall K G K' G', inbox k0 k1 g0 g1 K G -> inbox k0 k1 g0 g1 K' G' ->
  Rabs ((Ki - K) * sphP K G Ki Gi al - (Ki - K') * sphP K' G' Ki Gi al) <= L * (Rabs (K - K') + Rabs (G - G')) /\
  Rabs ((Gi - G) * sphQ K G Ki Gi al - (Gi - G') * sphQ K' G' Ki Gi al) <= L * (Rabs (K - K') + Rabs (G - G')).
Proof.
  assert (X : LIP (fun K G => (Ki - K) * sphP K G Ki Gi al)) by (assert (P := Lip_sphP); lip).
  assert (Y : LIP (fun K G => (Gi - G) * sphQ K G Ki Gi al)) by (assert (P := Lip_sphQ); lip).
  destruct X as (L & HL & X). destruct Y as (M & HM & Y). exists (L + M). split; [lra|]. intros K G K' G' I I'. specialize (X K G K' G' I I'). specialize (Y K G K' G' I I').
  assert (0 <= Rabs (K - K') + Rabs (G - G')) by (assert (Z := Rabs_pos (K - K')); assert (Z' := Rabs_pos (G - G')); lra).
  split; [apply Rle_trans with (1 := X)|apply Rle_trans with (1 := Y)]; apply Rmult_le_compat_r; lra.
Qed.
End SphLip.

(** ** Uniqueness *)
Definition dem_to (T : R) (m : mode) (Ki Gi al : R) (K G K' G' : R -> R) : Prop :=
  forall t, 0 <= t <= T -> 0 < K t /\ 0 < G t /\ derivable_pt_lim K t (K' t) /\ derivable_pt_lim G t (G' t) /\
    EM_DEM m (Fin (K t)) (Fin (G t)) (Fin t) (Fin Gi, Fin Ki, al) = Ret (Fin (K' t), Fin (G' t)).
Lemma rhs_at m Ki Gi al k g t a b : 0 < k -> 0 < g -> 0 <= Ki -> 0 <= Gi -> 0 < al <= 1 -> t < 1 -> EM_DEM m (Fin k) (Fin g) (Fin t) (Fin Gi, Fin Ki, al) = Ret (Fin a, Fin b) ->
  (1 - t) * a = (Ki - k) * sphP k g Ki Gi al /\ (1 - t) * b = (Gi - g) * sphQ k g Ki Gi al.
Proof. intros Hk Hg HKi HGi Ha Ht E. rewrite DEM_eval in E by (auto; lra). injection E as <- <-. split; field; lra. Qed.
Section Unique.
Variables (m : mode) (Ki Gi al T : R) (K1 G1 K1' G1' K2 G2 K2' G2' : R -> R).
Hypotheses (HKi : 0 <= Ki) (HGi : 0 <= Gi) (Hal : 0 < al <= 1) (HT : 0 <= T < 1).
Hypotheses (H1 : dem_to T m Ki Gi al K1 G1 K1' G1') (H2 : dem_to T m Ki Gi al K2 G2 K2' G2') (EK : K1 0 = K2 0) (EG : G1 0 = G2 0).
Lemma range_pos (u : R -> R) :  (forall t, 0 <= t <= T -> continuity_pt u t /\ 0 < u t) -> exists a b, 0 < a /\ forall t, 0 <= t <= T -> a <= u t <= b.
Proof.
  intros H. assert (HT0 := proj1 HT). destruct (continuity_ab_min u 0 T HT0) as (x & Hx & Ix); [intros; apply H; auto|]. destruct (continuity_ab_maj u 0 T HT0) as (y & Hy & Iy); [intros; apply H; auto|].
  exists (u x), (u y). split; [apply H; auto|]. intros t Ht. split; auto.
Qed.
Lemma dem_unique_to : K1 T = K2 T /\ G1 T = G2 T.
Proof.
  destruct (range_pos K1) as (a1 & b1 & P1 & R1); [intros t Ht; split; [apply derivable_continuous_pt; exists (K1' t)|]; apply H1; lra|].
  destruct (range_pos G1) as (a2 & b2 & P2 & R2); [intros t Ht; split; [apply derivable_continuous_pt; exists (G1' t)|]; apply H1; lra|].
  destruct (range_pos K2) as (a3 & b3 & P3 & R3); [intros t Ht; split; [apply derivable_continuous_pt; exists (K2' t)|]; apply H2; lra|].
  destruct (range_pos G2) as (a4 & b4 & P4 & R4); [intros t Ht; split; [apply derivable_continuous_pt; exists (G2' t)|]; apply H2; lra|].
  set (k0 := Rmin a1 a3). set (k1 := Rmax b1 b3). set (g0 := Rmin a2 a4). set (g1 := Rmax b2 b4).
  assert (I : forall t, 0 <= t <= T -> inbox k0 k1 g0 g1 (K1 t) (G1 t) /\ inbox k0 k1 g0 g1 (K2 t) (G2 t)).
  { intros t Ht. specialize (R1 t Ht). specialize (R2 t Ht). specialize (R3 t Ht). specialize (R4 t Ht). unfold inbox, k0, k1, g0, g1, Rmin, Rmax. repeat destruct Rle_dec; lra. }
  assert (K0 : 0 < k0) by (unfold k0, Rmin; destruct Rle_dec; lra). assert (G0 : 0 < g0) by (unfold g0, Rmin; destruct Rle_dec; lra).
  assert (I0 := I 0 ltac:(lra)). destruct I0 as (((? & ?) & ? & ?) & _).
  destruct (Lip_rhs k0 k1 g0 g1 Ki Gi al) as (L & HL & HLip); try lra; auto.
  apply (coincide T K1 G1 K2 G2) with K1' G1' K2' G2' (L / (1 - T)); auto; try lra.
  - apply Rmult_le_pos; [lra|left; apply Rinv_0_lt_compat; lra].
  - intros t Ht. destruct (I t Ht) as (Ia & Ib). destruct (HLip _ _ _ _ Ia Ib) as (X & Y). unfold gap. set (e := Rabs (K1 t - K2 t) + Rabs (G1 t - G2 t)) in *.
    assert (He : 0 <= e) by (unfold e; assert (Z := Rabs_pos (K1 t - K2 t)); assert (Z' := Rabs_pos (G1 t - G2 t)); lra).
    destruct (H1 t Ht) as (p1 & p2 & _ & _ & e1). destruct (H2 t Ht) as (p3 & p4 & _ & _ & e2).
    destruct (rhs_at m Ki Gi al _ _ t _ _ p1 p2 HKi HGi Hal ltac:(lra) e1) as (E1 & E2). destruct (rhs_at m Ki Gi al _ _ t _ _ p3 p4 HKi HGi Hal ltac:(lra) e2) as (E3 & E4).
    assert (Q : forall x, Rabs ((1 - t) * x) <= L * e -> Rabs x <= L / (1 - T) * e).
    { intros x Hx. rewrite Rabs_mult, (Rabs_right (1 - t)) in Hx by lra. replace (L / (1 - T) * e) with (L * e / (1 - T)) by (field; lra). apply le_div_iff; [lra|].
      apply Rle_trans with (2 := Hx). rewrite Rmult_comm. apply Rmult_le_compat_r; [apply Rabs_pos|lra]. }
    split; apply Q.
    + replace ((1 - t) * (K1' t - K2' t)) with ((1 - t) * K1' t - (1 - t) * K2' t) by ring. rewrite E1, E3. exact X.
    + replace ((1 - t) * (G1' t - G2' t)) with ((1 - t) * G1' t - (1 - t) * G2' t) by ring. rewrite E2, E4. exact Y.
  - intros t Ht. destruct (H1 t ltac:(lra)) as (_ & _ & ? & ? & _). destruct (H2 t ltac:(lra)) as (_ & _ & ? & ? & _). auto.
Qed.
End Unique.

Lemma dem_unique m Ki Gi al K1 G1 K1' G1' K2 G2 K2' G2' : 0 <= Ki -> 0 <= Gi -> 0 < al <= 1 -> dem_traj m Ki Gi al K1 G1 K1' G1' -> dem_traj m Ki Gi al K2 G2 K2' G2' ->
  K1 0 = K2 0 -> G1 0 = G2 0 -> forall T, 0 <= T < 1 -> K1 T = K2 T /\ G1 T = G2 T.
Proof.
  intros HKi HGi Ha H1 H2 EK EG T HT. apply (dem_unique_to m Ki Gi al T K1 G1 K1' G1' K2 G2 K2' G2'); auto; intros t Ht; [apply H1|apply H2]; lra.
Qed.

(** A solution that starts at positive moduli cannot leave them: it follows the positive trajectory. *)
Section Escape.
Variables (m : mode) (Ki Gi al T : R) (K1 G1 K1' G1' K2 G2 K2' G2' : R -> R).
Hypotheses (HKi : 0 <= Ki) (HGi : 0 <= Gi) (Hal : 0 < al <= 1) (HT : 0 < T <= 1).
Hypothesis (H1 : dem_traj m Ki Gi al K1 G1 K1' G1').
Hypothesis (H2 : forall t, 0 <= t < T -> derivable_pt_lim K2 t (K2' t) /\ derivable_pt_lim G2 t (G2' t) /\
    EM_DEM m (Fin (K2 t)) (Fin (G2 t)) (Fin t) (Fin Gi, Fin Ki, al) = Ret (Fin (K2' t), Fin (G2' t))).
Hypotheses (EK : K1 0 = K2 0) (EG : G1 0 = G2 0).
Lemma near_pos (u : R -> R) s : continuity_pt u s -> 0 < u s -> exists d, 0 < d /\ forall x, Rabs (x - s) < d -> 0 < u x.
Proof.
  intros C P. destruct (C (u s) P) as (d & Hd & D). exists d. split; [exact Hd|]. intros x Hx. destruct (Req_dec x s) as [->|N]; [exact P|].
  specialize (D x). unfold D_x, no_cond, dist in D; cbn in D. unfold R_dist in D. assert (Z : Rabs (u x - u s) < u s) by (apply D; split; [split; [exact I|auto]|exact Hx]).
  unfold Rabs in Z. destruct Rcase_abs in Z; lra.
Qed.
Lemma cont_eq (u v : R -> R) s : 0 < s -> continuity_pt u s -> continuity_pt v s -> (forall x, 0 <= x < s -> u x = v x) -> u s = v s.
Proof.
  intros Hs Cu Cv E. destruct (Req_dec (u s) (v s)) as [|N]; [auto|exfalso].
  assert (C : continuity_pt (fun x => (u x - v x) * (u x - v x)) s) by (apply continuity_pt_mult; apply continuity_pt_minus; auto).
  destruct (near_pos _ _ C) as (d & Hd & D). { assert (u s - v s <> 0) by lra. nra. }
  assert (Z := D (Rmax 0 (s - d / 2))). cbv beta in Z. rewrite E in Z.
  - assert (0 < 0); [|lra]. replace 0 with ((v (Rmax 0 (s - d / 2)) - v (Rmax 0 (s - d / 2))) * (v (Rmax 0 (s - d / 2)) - v (Rmax 0 (s - d / 2)))) at 2 by ring. apply Z.
    unfold Rmax, Rabs. destruct Rle_dec, Rcase_abs; lra.
  - unfold Rmax. destruct Rle_dec; lra.
Qed.
Lemma good_upto s : 0 <= s < T -> (forall u, 0 <= u <= s -> 0 < K2 u /\ 0 < G2 u) -> K2 s = K1 s /\ G2 s = G1 s.
Proof.
  intros Hs P. destruct (dem_unique_to m Ki Gi al s K1 G1 K1' G1' K2 G2 K2' G2') as (A & B); auto; try lra.
  - intros t Ht. apply H1. lra.
  - intros t Ht. destruct (P t Ht). destruct (H2 t ltac:(lra)) as (? & ? & ?). auto.
Qed.
Lemma dem_follow s : 0 <= s < T -> K2 s = K1 s /\ G2 s = G1 s.
Proof.
  intros Hs. apply good_upto; [exact Hs|].
  set (E := fun x => 0 <= x <= s /\ forall u, 0 <= u <= x -> 0 < K2 u /\ 0 < G2 u).
  destruct (H1 0 ltac:(lra)) as (P1 & P2 & _).
  assert (E0 : E 0). { split; [lra|]. intros u Hu. replace u with 0 by lra. rewrite <- EK, <- EG. auto. }
  destruct (completeness E) as (b & Ub & Lb). { exists s. intros x (Hx & _). lra. } { exists 0. exact E0. }
  assert (B0 : 0 <= b) by (apply Ub; exact E0). assert (Bs : b <= s) by (apply Lb; intros x (Hx & _); lra).
  assert (Below : forall u, 0 <= u < b -> 0 < K2 u /\ 0 < G2 u).
  { intros u Hu. destruct (Rlt_dec 0 (K2 u)) as [A1|A1], (Rlt_dec 0 (G2 u)) as [A2|A2]; [auto| | |]; exfalso;
    (assert (Z : b <= u); [apply Lb; intros x (Hx & Q); destruct (Rle_or_lt x u) as [|L]; [auto|]; destruct (Q u ltac:(lra)); lra|lra]). }
  assert (CK : continuity_pt K2 b) by (apply derivable_continuous_pt; exists (K2' b); apply H2; lra).
  assert (CG : continuity_pt G2 b) by (apply derivable_continuous_pt; exists (G2' b); apply H2; lra).
  destruct (H1 b ltac:(lra)) as (R1 & R2 & D1 & D2 & _).
  assert (Eb : K2 b = K1 b /\ G2 b = G1 b).
  { destruct (Req_dec b 0) as [->|N]; [auto|]. assert (Q : forall x, 0 <= x < b -> K2 x = K1 x /\ G2 x = G1 x) by (intros x Hx; apply good_upto; [lra|intros u Hu; apply Below; lra]).
    split; apply cont_eq; auto; try lra; try (intros x Hx; apply Q; auto); apply derivable_continuous_pt; [exists (K1' b)|exists (G1' b)]; auto. }
  destruct (near_pos K2 b CK) as (d & Hd & Nd); [lra|]. destruct (near_pos G2 b CG) as (d' & Hd' & Nd'); [lra|].
  set (x := Rmin s (Rmin (b + d / 2) (b + d' / 2))).
  assert (X : x <= s /\ x <= b + d / 2 /\ x <= b + d' / 2 /\ (x = s \/ b < x)) by (unfold x, Rmin; repeat destruct Rle_dec; lra).
  assert (Ex : E x).
  { split; [unfold x; split; [|apply Rmin_l]; unfold Rmin; repeat destruct Rle_dec; lra|]. intros u Hu. destruct (Rlt_or_le u b) as [L|L]; [apply Below; lra|].
    split; [apply Nd|apply Nd']; rewrite Rabs_right; lra. }
  assert (Xb := Ub x Ex). intros u Hu. apply Ex. lra.
Qed.
End Escape.
