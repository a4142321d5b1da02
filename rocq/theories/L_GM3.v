(** * GM.py: Digby. *)
From Verif Require Import Fl Cx M_Utils M_EM M_GM Spec Spec3 RealLemmas L_EM1 L_GM1.
Open Scope R_scope.

(** ** The depressed cubic [x^3 + p x - c], [p >= 0 < c] *)
Section Cubic.
Variables (p c : R).
Hypotheses (Hp : 0 <= p) (Hc : 0 < c).
Lemma cubic_root u v : u^3 - 3 * u * v^2 + p * u = c -> v * (3 * u^2 - v^2 + p) = 0 ->
  (v = 0 /\ 0 < u /\ u^3 + p * u = c) \/ (v <> 0 /\ u < 0).
Proof.
  intros H1 H2. destruct (Req_EM_T v 0) as [->|N].
  - left. split; [reflexivity|]. assert (E : u^3 + p * u = c) by (rewrite <- H1; ring). split; auto.
    destruct (Rlt_dec 0 u); auto. exfalso. assert (u^3 <= 0^3) by (apply Rnot_lt_le; intro X; apply cube_lt_inv in X; lra). nra.
  - right. split; [exact N|]. apply Rmult_integral in H2. destruct H2 as [?|H2]; [contradiction|].
    assert (v^2 = 3 * u^2 + p) by lra. rewrite H in H1.
    assert (E : 8 * u^3 + 2 * p * u = - c) by (rewrite <- H1; ring).
    apply Rnot_le_lt. intro X. assert (0 <= u^3) by (apply pow_le; lra). nra.
Qed.
Lemma cubic_unique u v : u^3 + p * u = c -> v^3 + p * v = c -> u = v.
Proof.
  intros A B. destruct (Rtotal_order u v) as [L|[E|L]]; auto; apply cube_lt in L as L3; nra.
Qed.
End Cubic.

Definition keep (x : fl) := match fleb #0 x with Some true => true | _ => false end.
Lemma keep_pos u : 0 <= u -> keep (Fin u) = true.
Proof. intros. unfold keep, fleb, fcmp. unfold Rleb. destruct (Rle_dec 0 u); [reflexivity|contradiction]. Qed.
Lemma keep_neg u : u < 0 -> keep (Fin u) = false.
Proof. intros. unfold keep, fleb, fcmp. unfold Rleb. destruct (Rle_dec 0 u); [lra|reflexivity]. Qed.

Lemma roots_kept np p c : roots_ok np -> 0 <= p -> 0 < c ->
  exists d, 0 < d /\ d^3 + p * d = c /\ filter keep (map creal (np [#1; #0; Fin p; Fin (- c)]%fl)) = [Fin d].
Proof.
  intros Hr Hp Hc. destruct (Hr 1 [0; p; - c] ltac:(lra)) as (L & F & P). cbv zeta in *. cbn [map] in *.
  set (zs := np _) in *. clearbody zs.
  destruct zs as [|z1 [|z2 [|z3 [|? ?]]]]; try discriminate L. clear L.
  destruct (Forall_inv F) as (u1 & v1 & ->). apply Forall_inv_tail in F.
  destruct (Forall_inv F) as (u2 & v2 & ->). apply Forall_inv_tail in F.
  destruct (Forall_inv F) as (u3 & v3 & ->). clear F.
  assert (E' : forall x y,
     x^3 - 3 * x * y^2 + p * x - c = (x - u1) * ((x - u2) * (x - u3) - (y - v2) * (y - v3)) - (y - v1) * ((x - u2) * (y - v3) + (y - v2) * (x - u3)) /\
     y * (3 * x^2 - y^2 + p) = (x - u1) * ((x - u2) * (y - v3) + (y - v2) * (x - u3)) + (y - v1) * ((x - u2) * (x - u3) - (y - v2) * (y - v3))).
  { intros x y. specialize (P (CFin x y) ltac:(eexists; eexists; reflexivity)).
    unfold ceval, cprod in P. cbn [fold_left fold_right map] in P.
    repeat (rewrite ?csub_fin, ?cmul_fin, ?cadd_fin in P). injection P as A B.
    ring_simplify in A. ring_simplify in B. split; ring_simplify; lra. }
  clear P.
  destruct (E' u1 v1) as [R1 T1]. destruct (E' u2 v2) as [R2 T2]. destruct (E' u3 v3) as [R3 T3].
  replace (u1 - u1) with 0 in R1, T1 by ring. replace (v1 - v1) with 0 in R1, T1 by ring.
  replace (u2 - u2) with 0 in R2, T2 by ring. replace (v2 - v2) with 0 in R2, T2 by ring.
  replace (u3 - u3) with 0 in R3, T3 by ring. replace (v3 - v3) with 0 in R3, T3 by ring.
  assert (C1 := cubic_root p c Hp Hc u1 v1 ltac:(lra) ltac:(lra)).
  assert (C2 := cubic_root p c Hp Hc u2 v2 ltac:(lra) ltac:(lra)).
  assert (C3 := cubic_root p c Hp Hc u3 v3 ltac:(lra) ltac:(lra)).
  clear R1 R2 R3 T1 T2 T3.
  assert (S : u1 + u2 + u3 = 0 /\ v1 + v2 + v3 = 0).
  { destruct (E' 0 0) as [A0 B0]. destruct (E' 1 0) as [A1 B1]. destruct (E' (-1) 0) as [A2 B2].
    split; lra. }
  clear E'. destruct S as [SU SV]. cbn [map creal].
  destruct C1 as [(V1 & P1 & Q1)|[M1 N1]]; destruct C2 as [(V2 & P2 & Q2)|[M2 N2]]; destruct C3 as [(V3 & P3 & Q3)|[M3 N3]];
    try (exfalso; lra); try (exfalso; (apply M1 + apply M2 + apply M3); lra).
  - exists u1. split; [|split]; auto. cbn [filter]. rewrite keep_pos, !keep_neg by lra. reflexivity.
  - exists u2. split; [|split]; auto. cbn [filter]. rewrite keep_neg, keep_pos, keep_neg by lra. reflexivity.
  - exists u3. split; [|split]; auto. cbn [filter]. rewrite !keep_neg, keep_pos by lra. reflexivity.
Qed.

(** ** Contact radius *)
Lemma digby_g a c b : digby_radius a c b -> exists d, 0 < d /\ d <= b /\ 0 < b /\ d * (3 * b^2 - d^2) = 2 * c /\ a^2 = b^2 - d^2.
Proof.
  intros (d & Hd & E & Hb & B). exists d. assert (0 <= a^2) by apply pow2_ge_0.
  split; [|split; [|split; [|split]]]; auto; try lra.
  - apply sq_le; lra.
  - rewrite <- E, B. field.
Qed.
Lemma g_mono d b d' b' : 0 < d -> d <= b -> 0 < d' -> d' <= b' -> d <= d' -> b <= b' ->
  d * (3 * b^2 - d^2) <= d' * (3 * b'^2 - d'^2).
Proof.
  intros. apply Rle_trans with (d * (3 * b'^2 - d^2)).
  - apply Rmult_le_compat_l; [lra|]. assert (b^2 <= b'^2) by (apply pow_incr; lra). lra.
  - assert (E : d' * (3 * b'^2 - d'^2) - d * (3 * b'^2 - d^2) = (d' - d) * (3 * b'^2 - d'^2 - d' * d - d^2)) by ring.
    assert (0 <= (d' - d) * (3 * b'^2 - d'^2 - d' * d - d^2)); [|lra].
    apply Rmult_le_pos; [lra|]. nra.
Qed.
Lemma g_mono_lt d b d' b' : 0 < d -> d <= b -> 0 < d' -> d' <= b' -> d <= d' -> b <= b' -> d < d' \/ b < b' ->
  d * (3 * b^2 - d^2) < d' * (3 * b'^2 - d'^2).
Proof.
  intros H1 H2 H3 H4 H5 H6 [H|H].
  - apply Rle_lt_trans with (d * (3 * b'^2 - d^2)).
    + apply Rmult_le_compat_l; [lra|]. assert (b^2 <= b'^2) by (apply pow_incr; lra). lra.
    + assert (E : d' * (3 * b'^2 - d'^2) - d * (3 * b'^2 - d^2) = (d' - d) * (3 * b'^2 - d'^2 - d' * d - d^2)) by ring.
      assert (0 < (d' - d) * (3 * b'^2 - d'^2 - d' * d - d^2)); [|lra].
      apply Rmult_lt_0_compat; [lra|]. assert (d'^2 <= b'^2) by (apply pow_incr; lra). nra.
  - apply Rlt_le_trans with (d * (3 * b'^2 - d^2)).
    + apply Rmult_lt_compat_l; [lra|]. nra.
    + assert (E : d' * (3 * b'^2 - d'^2) - d * (3 * b'^2 - d^2) = (d' - d) * (3 * b'^2 - d'^2 - d' * d - d^2)) by ring.
      assert (0 <= (d' - d) * (3 * b'^2 - d'^2 - d' * d - d^2)); [|lra].
      apply Rmult_le_pos; [lra|]. nra.
Qed.
(** More load or a larger initial bond gives a larger contact. *)
Lemma digby_mono a a' c c' b b' : 0 <= a <= a' -> c <= c' -> digby_radius a c b -> digby_radius a' c' b' -> b <= b'.
Proof.
  intros Ha Hc D D'. destruct (digby_g _ _ _ D) as (d & P1 & P2 & P3 & P4 & P5).
  destruct (digby_g _ _ _ D') as (d' & Q1 & Q2 & Q3 & Q4 & Q5).
  apply Rnot_lt_le. intro L.
  assert (a^2 <= a'^2) by (apply pow_incr; lra).
  assert (b'^2 < b^2) by nra.
  assert (d' < d) by nra.
  assert (X := g_mono_lt d' b' d b Q1 Q2 P1 P2 ltac:(lra) ltac:(lra) ltac:(auto)). lra.
Qed.
Lemma digby_unique a c b b' : 0 <= a -> digby_radius a c b -> digby_radius a c b' -> b = b'.
Proof. intros Ha D D'. apply Rle_antisym; [apply (digby_mono a a c c) | apply (digby_mono a a c c)]; auto; lra. Qed.
Lemma digby_lt a a' c c' b b' : 0 <= a <= a' -> c <= c' -> a < a' \/ c < c' -> digby_radius a c b -> digby_radius a' c' b' -> b < b'.
Proof.
  intros Ha Hc H D D'. destruct (digby_mono a a' c c' b b' Ha Hc D D') as [L|E]; [exact L|]. exfalso.
  destruct (digby_g _ _ _ D) as (d & P1 & P2 & P3 & P4 & P5).
  destruct (digby_g _ _ _ D') as (d' & Q1 & Q2 & Q3 & Q4 & Q5). subst b'.
  assert (a^2 <= a'^2) by (apply pow_incr; lra).
  assert (d' <= d) by (apply sq_le; lra).
  destruct H as [H|H].
  - assert (a^2 < a'^2) by nra. assert (d' < d) by nra.
    assert (X := g_mono_lt d' b d b Q1 Q2 P1 P2 ltac:(lra) ltac:(lra) ltac:(auto)). lra.
  - assert (X := g_mono d' b d b Q1 Q2 P1 P2 ltac:(lra) ltac:(lra)). lra.
Qed.
Lemma digby_bond a c b : 0 <= a -> digby_radius a c b -> a < b.
Proof. intros Ha (d & Hd & E & Hb & B). nra. Qed.
Lemma digby_nobond c b : digby_radius 0 c b -> b^3 = c.
Proof.
  intros (d & Hd & E & Hb & B). assert (b = d) by (apply sq_inj; lra). subst b. rewrite <- E. field.
Qed.

Definition dgK G0 nu phi Cn b := Cn * (1 - phi) * (4 * G0 * b / (1 - nu)) / 12 / PI.
Definition dgG G0 nu phi Cn a b := Cn * (1 - phi) * (4 * G0 * b / (1 - nu) + 3/2 * (8 * G0 * a / (2 - nu))) / 20 / PI.
Definition dgc G0 nu phi Cn P := 3 * PI * (1 - nu) * P / (2 * Cn * (1 - phi) * G0).
Lemma Digby_fin m np K0 G0 phi Cn sg a : roots_ok np -> 0 < K0 -> 0 < G0 -> 0 <= phi < 1 -> 0 < Cn -> 0 < sg -> 0 <= a ->
  exists b, digby_radius a (dgc G0 (poisson K0 G0) phi Cn (sg / 1000)) b /\
  GM_Digby m np (Fin K0) (Fin G0) (Fin phi) (Fin Cn) (Fin sg) (Fin a) =
  Ret ([Fin (dgK G0 (poisson K0 G0) phi Cn b)], [Fin (dgG G0 (poisson K0 G0) phi Cn a b)]).
Proof.
  intros Hr HK HG Hp HC Hs Ha. unfold GM_Digby.
  assert (D := nu_den K0 G0 HK HG). assert (N1 := nu_1p K0 G0 HK HG). assert (N2 := nu_2p K0 G0 HK HG).
  assert (PP : 0 < PI) by apply PI_RGT_0.
  assert (X : 0 < 2 * Cn * (1 - phi) * G0) by (repeat apply Rmult_lt_0_compat; lra).
  do 2 (repeat (first [fl1 | rewrite fdiv_fin by lra]; cbv beta)).
  change ((3 * K0 - 2 * G0) / (6 * K0 + 2 * G0)) with (poisson K0 G0).
  set (nu := poisson K0 G0) in *.
  do 2 (repeat (first [fl1 | rewrite fdiv_fin by lra]; cbv beta)).
  replace (-3 * PI * (1 - nu) * (sg / 1000) / (2 * Cn * (1 - phi) * G0)) with (- dgc G0 nu phi Cn (sg / 1000))
    by (unfold dgc; field; repeat split; lra).
  assert (C : 0 < dgc G0 nu phi Cn (sg / 1000)).
  { unfold dgc. apply Rdiv_lt_0_compat; [|lra]. apply Rmult_lt_0_compat; [|lra]. apply Rmult_lt_0_compat; lra. }
  destruct (roots_kept np (3/2 * a^2) _ Hr ltac:(assert (0 <= a^2) by apply pow2_ge_0; lra) C) as (d & Hd & Ed & F).
  fold keep. change (fun x : fl => match fleb #0 x with Some true => true | _ => false end) with keep.
  rewrite F. cbn [map].
  assert (0 < d^2) by (apply pow_lt, Hd). assert (0 <= a^2) by apply pow2_ge_0.
  exists (sqrt (d^2 + a^2)). split.
  - exists d. split; [|split; [|split]]; auto. apply sqrt_lt_R0; lra. apply pow2_sqrt; lra.
  - repeat (first [fl1 | rewrite fsqrt_fin by lra | rewrite fdiv_fin by lra]; cbv beta). reflexivity.
Qed.
Lemma Digby_unbonded m np K0 G0 phi Cn sg : roots_ok np -> 0 < K0 -> 0 < G0 -> 0 <= phi < 1 -> 0 < Cn -> 0 < sg ->
  exists K G, GM_Digby m np (Fin K0) (Fin G0) (Fin phi) (Fin Cn) (Fin sg) (Fin 0) = Ret ([Fin K], [Fin G]) /\
  GM_hertzmindlin m (Fin K0) (Fin G0) (Fin phi) (Fin Cn) (Fin sg) (Fin 0) = Ret (Fin K, Fin G).
Proof.
  intros Hr HK HG Hp HC Hs.
  destruct (Digby_fin m np K0 G0 phi Cn sg 0 Hr HK HG Hp HC Hs ltac:(lra)) as (b & Db & E).
  do 2 eexists. split; [exact E|]. rewrite hertzmindlin_fin by lra. cbv zeta.
  assert (N1 := nu_1p K0 G0 HK HG). assert (N2 := nu_2p K0 G0 HK HG). assert (PP : 0 < PI) by apply PI_RGT_0.
  apply digby_nobond in Db.
  assert (A : cbrt (hertz_K3 K0 G0 phi Cn (sg / 1000)) = dgK G0 (poisson K0 G0) phi Cn b).
  { apply cbrt_eq; [apply K3_nonneg; lra|]. unfold dgK.
    replace ((Cn * (1 - phi) * (4 * G0 * b / (1 - poisson K0 G0)) / 12 / PI)^3) with
      ((Cn * (1 - phi) * G0 / (1 - poisson K0 G0) / 3 / PI)^3 * b^3) by (field; repeat split; lra).
    rewrite Db. unfold hertz_K3, dgc. field. repeat split; lra. }
  rewrite A. reteq. unfold hertz_GK, dgK, dgG. cbv zeta. field. repeat split; lra.
Qed.
(** No load: three coinciding roots survive the filter. *)
Lemma roots_zero np p : roots_ok np -> 0 <= p ->
  filter keep (map creal (np [#1; #0; Fin p; Fin 0]%fl)) = [Fin 0; Fin 0; Fin 0].
Proof.
  intros Hr Hp. destruct (Hr 1 [0; p; 0] ltac:(lra)) as (L & F & P). cbv zeta in *. cbn [map] in *.
  set (zs := np _) in *. clearbody zs.
  destruct zs as [|z1 [|z2 [|z3 [|? ?]]]]; try discriminate L. clear L.
  destruct (Forall_inv F) as (u1 & v1 & ->). apply Forall_inv_tail in F.
  destruct (Forall_inv F) as (u2 & v2 & ->). apply Forall_inv_tail in F.
  destruct (Forall_inv F) as (u3 & v3 & ->). clear F.
  assert (E' : forall x y,
     x^3 - 3 * x * y^2 + p * x = (x - u1) * ((x - u2) * (x - u3) - (y - v2) * (y - v3)) - (y - v1) * ((x - u2) * (y - v3) + (y - v2) * (x - u3)) /\
     y * (3 * x^2 - y^2 + p) = (x - u1) * ((x - u2) * (y - v3) + (y - v2) * (x - u3)) + (y - v1) * ((x - u2) * (x - u3) - (y - v2) * (y - v3))).
  { intros x y. specialize (P (CFin x y) ltac:(eexists; eexists; reflexivity)).
    unfold ceval, cprod in P. cbn [fold_left fold_right map] in P.
    repeat (rewrite ?csub_fin, ?cmul_fin, ?cadd_fin in P). injection P as A B.
    ring_simplify in A. ring_simplify in B. split; ring_simplify; lra. }
  clear P.
  assert (Z : forall u v, u^3 - 3 * u * v^2 + p * u = 0 -> v * (3 * u^2 - v^2 + p) = 0 -> u = 0).
  { intros u v H1 H2. destruct (Req_EM_T v 0) as [->|N].
    - destruct (Rtotal_order u 0) as [L|[E|L]]; auto; exfalso; apply cube_lt in L as L3; nra.
    - apply Rmult_integral in H2. destruct H2 as [?|H2]; [contradiction|].
      assert (V : v^2 = 3 * u^2 + p) by lra. rewrite V in H1.
      assert (E : 8 * u^3 + 2 * p * u = 0) by lra.
      destruct (Rtotal_order u 0) as [L|[E0|L]]; auto; exfalso; apply cube_lt in L as L3; nra. }
  destruct (E' u1 v1) as [R1 T1]. destruct (E' u2 v2) as [R2 T2]. destruct (E' u3 v3) as [R3 T3].
  replace (u1 - u1) with 0 in R1, T1 by ring. replace (v1 - v1) with 0 in R1, T1 by ring.
  replace (u2 - u2) with 0 in R2, T2 by ring. replace (v2 - v2) with 0 in R2, T2 by ring.
  replace (u3 - u3) with 0 in R3, T3 by ring. replace (v3 - v3) with 0 in R3, T3 by ring.
  assert (C1 := Z u1 v1 ltac:(lra) ltac:(lra)). assert (C2 := Z u2 v2 ltac:(lra) ltac:(lra)).
  assert (C3 := Z u3 v3 ltac:(lra) ltac:(lra)). subst u1 u2 u3. cbn [map creal filter].
  rewrite !keep_pos by lra. reflexivity.
Qed.
Lemma Digby_zero m np K0 G0 phi Cn a : roots_ok np -> 0 < K0 -> 0 < G0 -> 0 <= phi < 1 -> 0 < Cn -> 0 <= a ->
  exists K G, GM_Digby m np (Fin K0) (Fin G0) (Fin phi) (Fin Cn) (Fin 0) (Fin a) =
    Ret ([Fin K; Fin K; Fin K], [Fin G; Fin G; Fin G]).
Proof.
  intros Hr HK HG Hp HC Ha. unfold GM_Digby.
  assert (D := nu_den K0 G0 HK HG). assert (N1 := nu_1p K0 G0 HK HG). assert (N2 := nu_2p K0 G0 HK HG).
  assert (PP : 0 < PI) by apply PI_RGT_0.
  assert (X : 0 < 2 * Cn * (1 - phi) * G0) by (repeat apply Rmult_lt_0_compat; lra).
  do 2 (repeat (first [fl1 | rewrite fdiv_fin by lra]; cbv beta)).
  change ((3 * K0 - 2 * G0) / (6 * K0 + 2 * G0)) with (poisson K0 G0).
  set (nu := poisson K0 G0) in *.
  do 2 (repeat (first [fl1 | rewrite fdiv_fin by lra]; cbv beta)).
  replace (-3 * PI * (1 - nu) * (0 / 1000) / (2 * Cn * (1 - phi) * G0)) with 0 by (field; repeat split; lra).
  assert (0 <= a^2) by apply pow2_ge_0.
  change (fun x : fl => match fleb #0 x with Some true => true | _ => false end) with keep.
  rewrite roots_zero by (auto; lra). cbn [map].
  repeat (first [fl1 | rewrite fsqrt_fin by lra | rewrite fdiv_fin by lra]; cbv beta).
  do 2 eexists. reflexivity.
Qed.
