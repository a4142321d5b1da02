(** * GM.py: contact cement, constant cement, increasing cement. *)
From Verif Require Import Fl Cx M_Utils M_EM M_GM Spec Spec3 RealLemmas L_EM1 L_GM1.
Open Scope R_scope.

(** ** Regressions of Dvorkin and Nur *)
Definition ccK K0 G0 Kc Gc phic Cn a := 1/6 * Cn * (1 - phic) * (Kc + 4/3 * Gc) * dnS (lambda_n K0 G0 Kc Gc) a.
Definition ccG K0 G0 Kc Gc phic Cn a :=
  3/5 * ccK K0 G0 Kc Gc phic Cn a + 3/20 * Cn * (1 - phic) * Gc * dnT (poisson K0 G0) (lambda_t G0 Gc) a.

Lemma lambda_n_pos K0 G0 Kc Gc : 0 < K0 -> 0 < G0 -> 0 < Kc -> 0 < Gc -> 0 < lambda_n K0 G0 Kc Gc.
Proof.
  intros A B C D. unfold lambda_n. assert (X := nu_1p K0 G0 A B). assert (Y := nu_1p Kc Gc C D).
  assert (Z := nu_half Kc Gc C D). assert (0 < 1 - 2 * poisson Kc Gc) by lra. assert (0 < PI) by apply PI_RGT_0.
  apply Rdiv_lt_0_compat; pos.
Qed.
Lemma lambda_t_pos G0 Gc : 0 < G0 -> 0 < Gc -> 0 < lambda_t G0 Gc.
Proof.
  intros A B. unfold lambda_t. assert (0 < PI) by apply PI_RGT_0. apply Rdiv_lt_0_compat; auto. apply Rmult_lt_0_compat; lra.
Qed.

Lemma fpow_quarter m x : 0 <= x -> fpow m (Fin x) (Fin (1/4)) = Fin (sqrt (sqrt x)).
Proof.
  intros [H|<-].
  - rewrite fpow_fin by assumption. apply f_equal.
    rewrite <- (Rpower_sqrt (sqrt x)) by (apply sqrt_lt_R0, H). rewrite <- (Rpower_sqrt x) by assumption.
    rewrite Rpower_mult. f_equal. field.
  - rewrite fpow_zero by lra. rewrite !sqrt_0. reflexivity.
Qed.
Lemma fpow_half m x : 0 <= x -> fpow m (Fin x) (Fin (1/2)) = Fin (sqrt x).
Proof.
  intros [H|<-].
  - rewrite fpow_fin by assumption. apply f_equal.
    rewrite <- (Rpower_sqrt x) by assumption. f_equal. field.
  - rewrite fpow_zero by lra. rewrite !sqrt_0. reflexivity.
Qed.

Lemma contactcement_fin m K0 G0 Kc Gc phi phic Cn scheme :
  0 < K0 -> 0 < G0 -> 0 < Kc -> 0 < Gc -> phi <= phic -> phic < 1 -> 0 < Cn ->
  GM_contactcement m (Fin K0) (Fin G0) (Fin Kc) (Fin Gc) (Fin phi) (Fin phic) (Fin Cn) scheme =
  let a := cement_radius scheme (phic - phi) phic Cn in
  Ret (Fin (ccK K0 G0 Kc Gc phic Cn a), Fin (ccG K0 G0 Kc Gc phic Cn a)).
Proof.
  intros H1 H2 H3 H4 Hp Hc HC. cbv zeta. unfold GM_contactcement.
  assert (D1 := nu_den K0 G0 H1 H2). assert (D2 := nu_den Kc Gc H3 H4).
  assert (LN := lambda_n_pos K0 G0 Kc Gc H1 H2 H3 H4). assert (LT := lambda_t_pos G0 Gc H2 H4).
  assert (Z := nu_half Kc Gc H3 H4). assert (PP : 0 < PI) by apply PI_RGT_0.
  do 2 (repeat (first [fl1 | rewrite fdiv_fin by lra]; cbv beta)).
  change ((3 * K0 - 2 * G0) / (6 * K0 + 2 * G0)) with (poisson K0 G0).
  change ((3 * Kc - 2 * Gc) / (6 * Kc + 2 * Gc)) with (poisson Kc Gc).
  assert (A : (if Z.eqb scheme 1
     then (#2 * fpow m (fdiv m #(phic - phi) #(3 * Cn * (1 - phic))) (fdiv m #1 #4))%fl
     else fpow m (fdiv m #(2 * (phic - phi)) #(3 * (1 - phic))) (fdiv m #1 #2)) =
     Fin (cement_radius scheme (phic - phi) phic Cn)).
  { unfold cement_radius. assert (0 < 3 * Cn * (1 - phic)) by (apply Rmult_lt_0_compat; lra).
    destruct (Z.eqb scheme 1).
    - rewrite !fdiv_fin by lra. rewrite fpow_quarter; [apply fmul_fin|].
      apply Rmult_le_pos; [lra|left; apply Rinv_0_lt_compat; lra].
    - rewrite !fdiv_fin by lra. rewrite fpow_half; [reflexivity|].
      apply Rmult_le_pos; [lra|left; apply Rinv_0_lt_compat; lra]. }
  rewrite A. set (a := cement_radius _ _ _ _).
  assert (X : PI * G0 * (1 - 2 * poisson Kc Gc) <> 0).
  { apply Rgt_not_eq. unfold Rgt. apply Rmult_lt_0_compat; [apply Rmult_lt_0_compat|]; lra. }
  assert (Y : PI * G0 <> 0) by (apply Rgt_not_eq; unfold Rgt; apply Rmult_lt_0_compat; lra).
  repeat (first [fl1 | rewrite fdiv_fin by assumption]; cbv beta).
  change (2 * Gc * (1 - poisson K0 G0) * (1 - poisson Kc Gc) / (PI * G0 * (1 - 2 * poisson Kc Gc)))
    with (lambda_n K0 G0 Kc Gc).
  change (Gc / (PI * G0)) with (lambda_t G0 Gc).
  repeat (first [fl1 | rewrite fpow_fin by assumption | rewrite fdiv_fin by lra]; cbv beta).
  unfold ccG, ccK, dnS, dnT, dnN1, dnN2, dnN3, dnT1, dnT2, dnT3. reteq.
Qed.

(** ** Monotonicity in the cement radius *)
Lemma quad_incr p q r a b : 0 <= a -> a < b -> 2 * b * (- p) <= q -> p < 0 ->
  p * a^2 + q * a + r < p * b^2 + q * b + r.
Proof.
  intros Ha Hab Hq Hp. assert (0 < (b - a) * (p * (a + b) + q)); [|nra].
  apply Rmult_lt_0_compat; [lra|]. nra.
Qed.
(** [L^e >= min(1, sqrt L)] for an exponent between 0 and 1/2. *)
Lemma pow_min L e c : 0 < L -> 0 <= e <= 1/2 -> 0 <= c -> c <= 1 -> c^2 <= L -> c <= Rpower L e.
Proof.
  intros HL He Hc Hc1 Hc2.
  destruct (Rle_dec 1 L) as [G|G].
  - apply Rle_trans with 1; [lra|]. rewrite <- (Rpower_O L) by assumption. apply Rle_Rpower; lra.
  - apply Rle_trans with (sqrt L).
    + apply sq_le; [apply sqrt_pos|]. rewrite pow2_sqrt by lra. assumption.
    + rewrite <- Rpower_sqrt by assumption. unfold Rpower. assert (ln L < 0) by (rewrite <- ln_1; apply ln_increasing; lra).
      destruct (Req_EM_T (e * ln L) (/2 * ln L)) as [->|]; [lra|]. left. apply exp_increasing. nra.
Qed.
Lemma Rpower_split L a b : Rpower L a = Rpower L (a - b) * Rpower L b.
Proof. rewrite <- Rpower_plus. f_equal. ring. Qed.
Lemma dnS_incr L a b : 0 < L -> 0 <= a -> a < b -> b <= 1 -> b^2 <= 16 * L -> dnS L a < dnS L b.
Proof.
  intros HL Ha Hab Hb Hb2. unfold dnS. assert (P : 0 < Rpower L (- (13646/10000))) by apply exp_pos.
  apply quad_incr; auto; unfold dnN1, dnN2; [|nra].
  rewrite (Rpower_split L (- (89008/100000)) (- (13646/10000))).
  assert (M : b / 4 <= Rpower L (- (89008/100000) - - (13646/10000))).
  { apply pow_min; lra. }
  set (u := Rpower L (- (89008/100000) - - (13646/10000))) in *.
  apply Rle_trans with (20405/100000 * ((b/4) * Rpower L (- (13646/10000)))); [|nra].
  assert (0 <= b * Rpower L (- (13646/10000))) by (apply Rmult_le_pos; lra). nra.
Qed.
Lemma dnT_incr n L a b : 0 < L -> 0 <= n <= 1/2 -> 0 <= a -> a < b -> b <= 1 -> b^2 <= 11 * L -> dnT n L a < dnT n L b.
Proof.
  intros HL Hn Ha Hab Hb Hb2. unfold dnT.
  assert (P : 0 < Rpower L (79/1000 * n^2 + 1754/10000 * n - 1342/1000)) by apply exp_pos.
  apply quad_incr; auto; unfold dnT1, dnT2.
  2:{ assert (0 < 226/100 * n^2 + 207/100 * n + 23/10) by nra. nra. }
  rewrite (Rpower_split L (274/10000 * n^2 + 529/10000 * n - 8765/10000) (79/1000 * n^2 + 1754/10000 * n - 1342/1000)).
  set (Q := Rpower L (79/1000 * n^2 + 1754/10000 * n - 1342/1000)) in *.
  assert (M : b * (100/335) <= Rpower L (274/10000 * n^2 + 529/10000 * n - 8765/10000 -
      (79/1000 * n^2 + 1754/10000 * n - 1342/1000))).
  { apply pow_min; try lra. split; nra. }
  set (u := Rpower L _) in M |- *.
  set (w := 573/10000 * n^2 + 937/10000 * n + 202/1000).
  set (v := 226/100 * n^2 + 207/100 * n + 23/10).
  assert (W : 2 * v * (1/100) <= w * (100/335)) by (unfold w, v; nra).
  assert (0 < w) by (unfold w; nra).
  assert (0 <= b * Q) by (apply Rmult_le_pos; lra).
  apply Rle_trans with (w * (b * (100/335) * Q)).
  - replace (2 * b * - (- (1/100) * v * Q)) with ((2 * v * (1/100)) * (b * Q)) by ring.
    replace (w * (b * (100/335) * Q)) with ((w * (100/335)) * (b * Q)) by ring. apply Rmult_le_compat_r; lra.
  - apply Rmult_le_compat_l; [lra|]. apply Rmult_le_compat_r; lra.
Qed.
Lemma dnS_0 L : 0 < dnS L 0.
Proof. unfold dnS, dnN3. assert (0 < Rpower L (- (19864/10000))) by apply exp_pos. lra. Qed.
Lemma dnT_0 n L : 0 <= n -> 0 < dnT n L 0.
Proof.
  intros. unfold dnT, dnT3. assert (0 < Rpower L (1867/100000 * n^2 + 4011/10000 * n - 18186/10000)) by apply exp_pos.
  assert (0 < 9654/1000 * n^2 + 4945/1000 * n + 31/10) by nra. nra.
Qed.

Section CC.
Variables (K0 G0 Kc Gc phic Cn : R).
Hypotheses (HK : 0 < K0) (HG : 0 < G0) (HKc : 0 < Kc) (HGc : 0 < Gc) (Hp : phic < 1) (HC : 0 < Cn) (Hn : 2 * G0 <= 3 * K0).
Lemma nu_nonneg : 0 <= poisson K0 G0.
Proof. unfold poisson. apply Rmult_le_pos; [lra|left; apply Rinv_0_lt_compat; lra]. Qed.
Lemma cc_incr a b : 0 <= a -> a < b -> b <= 1 -> b^2 <= 16 * lambda_n K0 G0 Kc Gc -> b^2 <= 11 * lambda_t G0 Gc ->
  ccK K0 G0 Kc Gc phic Cn a < ccK K0 G0 Kc Gc phic Cn b /\ ccG K0 G0 Kc Gc phic Cn a < ccG K0 G0 Kc Gc phic Cn b.
Proof.
  intros Ha Hab Hb1 Hb2 Hb3.
  assert (N := nu_nonneg). assert (Nh := nu_half K0 G0 HK HG).
  assert (S := dnS_incr _ a b (lambda_n_pos K0 G0 Kc Gc HK HG HKc HGc) Ha Hab Hb1 Hb2).
  assert (T := dnT_incr (poisson K0 G0) _ a b (lambda_t_pos G0 Gc HG HGc) ltac:(lra) Ha Hab Hb1 Hb3).
  assert (X : ccK K0 G0 Kc Gc phic Cn a < ccK K0 G0 Kc Gc phic Cn b).
  { unfold ccK. apply Rmult_lt_compat_l; [|exact S].
    apply Rmult_lt_0_compat; [apply Rmult_lt_0_compat|]; lra. }
  split; [exact X|]. unfold ccG. apply Rplus_lt_compat; [lra|].
  apply Rmult_lt_compat_l; [|exact T]. repeat apply Rmult_lt_0_compat; lra.
Qed.
Lemma cc_pos0 : 0 < ccK K0 G0 Kc Gc phic Cn 0 /\ 0 < ccG K0 G0 Kc Gc phic Cn 0.
Proof.
  assert (S := dnS_0 (lambda_n K0 G0 Kc Gc)). assert (T := dnT_0 (poisson K0 G0) (lambda_t G0 Gc) nu_nonneg).
  assert (X : 0 < ccK K0 G0 Kc Gc phic Cn 0).
  { unfold ccK. apply Rmult_lt_0_compat; [|exact S]. apply Rmult_lt_0_compat; [apply Rmult_lt_0_compat|]; lra. }
  split; [exact X|]. unfold ccG. apply Rplus_lt_0_compat; [lra|]. apply Rmult_lt_0_compat; [|exact T].
  repeat apply Rmult_lt_0_compat; lra.
Qed.
Lemma cc_pos a : 0 <= a -> a <= 1 -> a^2 <= 16 * lambda_n K0 G0 Kc Gc -> a^2 <= 11 * lambda_t G0 Gc ->
  0 < ccK K0 G0 Kc Gc phic Cn a /\ 0 < ccG K0 G0 Kc Gc phic Cn a.
Proof.
  intros Ha H1 H2 H3. destruct cc_pos0 as [P Q]. destruct Ha as [Ha|<-]; [|auto].
  destruct (cc_incr 0 a) as [U V]; auto; lra.
Qed.
End CC.

(** ** Cement radius *)
Lemma radius_nonneg sch s phic Cn : 0 <= cement_radius sch s phic Cn.
Proof.
  unfold cement_radius. destruct (Z.eqb sch 1); [|apply sqrt_pos].
  apply Rmult_le_pos; [lra|apply sqrt_pos].
Qed.
Lemma radius_0 sch phic Cn : cement_radius sch 0 phic Cn = 0.
Proof.
  unfold cement_radius. destruct (Z.eqb sch 1).
  - unfold Rdiv. rewrite Rmult_0_l, !sqrt_0. ring.
  - unfold Rdiv. rewrite Rmult_0_r, Rmult_0_l, sqrt_0. reflexivity.
Qed.
Lemma radius_incr sch s s' phic Cn : 0 <= s -> s < s' -> phic < 1 -> 0 < Cn ->
  cement_radius sch s phic Cn < cement_radius sch s' phic Cn.
Proof.
  intros Hs H Hp HC. unfold cement_radius. destruct (Z.eqb sch 1).
  - assert (0 < 3 * Cn * (1 - phic)) by (apply Rmult_lt_0_compat; lra).
    assert (0 <= s / (3 * Cn * (1 - phic))) by (apply Rmult_le_pos; [lra|left; apply Rinv_0_lt_compat; lra]).
    apply Rmult_lt_compat_l; [lra|]. apply sqrt_lt_1; try apply sqrt_pos. apply sqrt_lt_1; auto.
    + apply Rmult_le_pos; [lra|left; apply Rinv_0_lt_compat; lra].
    + apply Rmult_lt_compat_r; [apply Rinv_0_lt_compat; lra|lra].
  - assert (0 < 3 * (1 - phic)) by lra.
    assert (0 <= 2 * s / (3 * (1 - phic))) by (apply Rmult_le_pos; [lra|left; apply Rinv_0_lt_compat; lra]).
    apply sqrt_lt_1; auto.
    + apply Rmult_le_pos; [lra|left; apply Rinv_0_lt_compat; lra].
    + apply Rmult_lt_compat_r; [apply Rinv_0_lt_compat; lra|lra].
Qed.
(** Cement at the contacts reaches further than the same amount spread over the grains. *)
Lemma radius_scheme sch s phic Cn : sch <> 1%Z -> 0 < s -> phic < 1 -> 0 < Cn -> Cn * s < 12 * (1 - phic) ->
  cement_radius sch s phic Cn < cement_radius 1 s phic Cn.
Proof.
  intros Hn Hs Hp HC H. unfold cement_radius. apply Z.eqb_neq in Hn. rewrite Hn. rewrite Z.eqb_refl.
  assert (P : 0 < 3 * Cn * (1 - phic)) by (apply Rmult_lt_0_compat; lra). assert (0 < 3 * (1 - phic)) by lra.
  assert (A : 0 < s / (3 * Cn * (1 - phic))) by (apply Rdiv_lt_0_compat; lra).
  assert (B : 0 < 2 * s / (3 * (1 - phic))) by (apply Rdiv_lt_0_compat; lra).
  assert (E : 2 * sqrt (sqrt (s / (3 * Cn * (1 - phic)))) = sqrt (4 * sqrt (s / (3 * Cn * (1 - phic))))).
  { rewrite sqrt_mult by (try apply sqrt_pos; lra). f_equal. replace 4 with (2*2) by ring. rewrite sqrt_square; lra. }
  rewrite E. apply sqrt_lt_1; [lra|pos|].
  assert (E2 : 4 * sqrt (s / (3 * Cn * (1 - phic))) = sqrt (16 * (s / (3 * Cn * (1 - phic))))).
  { rewrite sqrt_mult by lra. f_equal. replace 16 with (4*4) by ring. rewrite sqrt_square; lra. }
  rewrite E2. rewrite <- (sqrt_pow2 (2 * s / (3 * (1 - phic)))) by lra. apply sqrt_lt_1; [pos|lra|].
  replace ((2 * s / (3 * (1 - phic)))^2) with ((s / (3 * Cn * (1 - phic))) * (4/3 * (Cn * s) / (1 - phic))) by (field; lra).
  rewrite (Rmult_comm 16). apply Rmult_lt_compat_l; [exact A|]. apply div_lt_iff; lra.
Qed.

(** ** Homogeneity *)
Lemma poisson_scale l K G : l <> 0 -> 0 < K -> 0 < G -> poisson (l * K) (l * G) = poisson K G.
Proof.
  intros. unfold poisson. replace (3 * (l * K) - 2 * (l * G)) with (l * (3 * K - 2 * G)) by ring.
  replace (6 * (l * K) + 2 * (l * G)) with (l * (6 * K + 2 * G)) by ring. field. lra.
Qed.
Lemma cc_scale l K0 G0 Kc Gc phic Cn a : 0 < l -> 0 < K0 -> 0 < G0 -> 0 < Kc -> 0 < Gc ->
  ccK (l * K0) (l * G0) (l * Kc) (l * Gc) phic Cn a = l * ccK K0 G0 Kc Gc phic Cn a /\
  ccG (l * K0) (l * G0) (l * Kc) (l * Gc) phic Cn a = l * ccG K0 G0 Kc Gc phic Cn a.
Proof.
  intros Hl H1 H2 H3 H4. assert (PP : 0 < PI) by apply PI_RGT_0. assert (Z := nu_half Kc Gc H3 H4).
  assert (E1 : lambda_n (l * K0) (l * G0) (l * Kc) (l * Gc) = lambda_n K0 G0 Kc Gc).
  { unfold lambda_n. rewrite !poisson_scale by lra. field. repeat split; lra. }
  assert (E2 : lambda_t (l * G0) (l * Gc) = lambda_t G0 Gc) by (unfold lambda_t; field; repeat split; lra).
  assert (X : ccK (l * K0) (l * G0) (l * Kc) (l * Gc) phic Cn a = l * ccK K0 G0 Kc Gc phic Cn a)
    by (unfold ccK; rewrite E1; ring).
  split; [exact X|]. unfold ccG. rewrite X, E2, poisson_scale by lra. ring.
Qed.

(** ** Cemented sand below the cement threshold *)
Lemma constantcement_fin m K0 G0 Kc Gc phi phi_b phic Cn scheme Kb Gb :
  GM_contactcement m (Fin K0) (Fin G0) (Fin Kc) (Fin Gc) (Fin phi_b) (Fin phic) (Fin Cn) scheme = Ret (Fin Kb, Fin Gb) ->
  0 < K0 -> 0 < G0 -> 0 < Kb -> 0 < Gb -> 0 < phi_b -> 0 <= phi <= phi_b ->
  GM_constantcement m (Fin phi_b) (Fin K0) (Fin G0) (Fin Kc) (Fin Gc) (Fin phi) (Fin phic) (Fin Cn) scheme =
  Ret (Fin (walpole (zK Gb) (phi / phi_b) Kb K0), Fin (walpole (zG Kb Gb) (phi / phi_b) Gb G0)).
Proof.
  intros E H1 H2 H3 H4 Hb Hp. unfold GM_constantcement. rewrite E, call_ret.
  assert (T : 0 <= phi / phi_b <= 1) by (split; [apply le_div_iff|apply div_le_iff]; lra).
  assert (Z := zG_pos Kb Gb H3 H4).
  rewrite (fdiv_fin m phi phi_b) by lra. rewrite bind_fin, zG_code' by lra. rewrite bind_fin.
  rewrite wal_K' by lra. rewrite bind_fin. rewrite wal_G' by lra. rewrite bind_fin. reflexivity.
Qed.
Lemma MUHS_fin m K0 G0 Kc Gc phi phi_b phic Cn scheme Kb Gb :
  GM_contactcement m (Fin K0) (Fin G0) (Fin Kc) (Fin Gc) (Fin phi_b) (Fin phic) (Fin Cn) scheme = Ret (Fin Kb, Fin Gb) ->
  0 < K0 -> 0 < G0 -> 0 < Kb -> 0 < Gb -> 0 < phi_b -> 0 <= phi <= phi_b ->
  GM_MUHS m (Fin K0) (Fin G0) (Fin Kc) (Fin Gc) (Fin phi) (Fin phi_b) (Fin phic) (Fin Cn) scheme =
  Ret (Fin (walpole (zK G0) (phi / phi_b) Kb K0), Fin (walpole (zG K0 G0) (phi / phi_b) Gb G0)).
Proof.
  intros E H1 H2 H3 H4 Hb Hp. unfold GM_MUHS. rewrite E, call_ret.
  assert (T : 0 <= phi / phi_b <= 1) by (split; [apply le_div_iff|apply div_le_iff]; lra).
  assert (Z := zG_pos K0 G0 H1 H2).
  rewrite !(fdiv_fin m phi phi_b) by lra. rewrite wal_K by lra. rewrite bind_fin, zG_code by lra. rewrite bind_fin.
  rewrite wal_G by lra. rewrite bind_fin. reflexivity.
Qed.
