(** * L_RoundRel: relative errors of floating-point runs (C81). *)
From Verif Require Import Fl M_Array M_Round Spec18 L_Round.
Open Scope R_scope.

(** ** Counting roundings: y is x times a factor between (1-u)^k and (1-u)^-k. *)
Section Rel.
Variable u : R.
Hypothesis Hu : 0 <= u <= / 1000000.
Let g := / (1 - u).
Lemma g1 : 1 <= g.
Proof. unfold g. rewrite <- Rinv_1. apply Rinv_le_contravar; lra. Qed.
Lemma gk k : 1 <= g ^ k.
Proof. apply pow_R1_Rle, g1. Qed.
Lemma gkpos k : 0 < g ^ k.
Proof. pose proof (gk k); lra. Qed.
Lemma g_le j k : (j <= k)%nat -> g ^ j <= g ^ k.
Proof. intros H. apply Rle_pow; auto. apply g1. Qed.
Definition fac (k : nat) (t : R) : Prop := / g ^ k <= t <= g ^ k.
Lemma fac_pos k t : fac k t -> 0 < t.
Proof. intros (H & _). pose proof (Rinv_0_lt_compat _ (gkpos k)); lra. Qed.
Lemma fac_le j k t : (j <= k)%nat -> fac j t -> fac k t.
Proof.
  intros L (H1 & H2); pose proof (g_le j k L). split; [|lra].
  apply Rle_trans with (/ g ^ j); auto. apply Rinv_le_contravar; auto. apply gkpos.
Qed.
Lemma fac_1 k : fac k 1.
Proof.
  pose proof (gk k); split; auto. rewrite <- Rinv_1. apply Rinv_le_contravar; lra.
Qed.
Lemma fac_mul j k s t : fac j s -> fac k t -> fac (j + k) (s * t).
Proof.
  intros Hs Ht. pose proof (fac_pos _ _ Hs); pose proof (fac_pos _ _ Ht). destruct Hs as (s1 & s2), Ht as (t1 & t2).
  pose proof (Rinv_0_lt_compat _ (gkpos j)). pose proof (Rinv_0_lt_compat _ (gkpos k)).
  pose proof (gkpos j); pose proof (gkpos k).
  unfold fac. rewrite pow_add. rewrite Rinv_mult. split; apply Rmult_le_compat; lra.
Qed.
Lemma fac_inv k t : fac k t -> fac k (/ t).
Proof.
  intros H; pose proof (fac_pos _ _ H). destruct H as (h1 & h2). split.
  - apply Rinv_le_contravar; auto.
  - rewrite <- (Rinv_inv (g ^ k)). apply Rinv_le_contravar; auto.
    apply Rinv_0_lt_compat, gkpos.
Qed.
Lemma fac_pow k t n : fac k t -> fac (n * k) (t ^ n).
Proof.
  intros H; induction n as [|n IH]; simpl; [apply fac_1|]. apply (fac_mul k (n * k)); auto.
Qed.
Lemma fac_sqrt k t : fac k t -> fac k (sqrt t).
Proof.
  intros H; pose proof (fac_pos _ _ H). destruct H as (h1 & h2). pose proof (gk k). pose proof (gkpos k).
  assert (S : sqrt t * sqrt t = t) by (apply sqrt_sqrt; lra).
  assert (P : 0 < sqrt t) by (apply sqrt_lt_R0; auto).
  assert (I : / g ^ k <= 1) by (rewrite <- Rinv_1; apply Rinv_le_contravar; lra).
  split.
  - destruct (Rle_dec (/ g ^ k) (sqrt t)); auto. exfalso.
    assert (sqrt t * sqrt t < / g ^ k * 1); [apply Rmult_le_0_lt_compat; lra|lra].
  - destruct (Rle_dec (sqrt t) (g ^ k)); auto. exfalso.
    assert (g ^ k * 1 < sqrt t * sqrt t); [apply Rmult_le_0_lt_compat; lra|lra].
Qed.
Lemma fac_near x y : near u x y -> exists t, y = x * t /\ fac 1 t.
Proof.
  unfold near; intros H. destruct (Req_dec x 0) as [->|N].
  - rewrite Rabs_R0, Rmult_0_r, Rminus_0_r in H. exists 1; split; [|apply fac_1].
    pose proof (Rabs_pos y). destruct (Req_dec y 0); [lra|]. pose proof (Rabs_pos_lt y H1); lra.
  - exists (y / x); split; [field; auto|].
    assert (B : Rabs (y / x - 1) <= u).
    { replace (y / x - 1) with ((y - x) / x) by (field; auto). unfold Rdiv. rewrite Rabs_mult, Rabs_inv by auto.
      pose proof (Rabs_pos_lt x N).
      apply (Rmult_le_reg_r (Rabs x)); auto. rewrite Rmult_assoc, Rinv_l by lra. lra. }
    apply rabs_le in B. unfold fac, g. rewrite pow_1, Rinv_inv. split; [lra|].
    apply Rle_trans with (1 + u); [lra|]. apply (Rmult_le_reg_r (1 - u)); [lra|]. rewrite Rinv_l by lra. nra.
Qed.
Lemma bern s n : 0 <= s -> 1 + INR n * s <= (1 + s) ^ n.
Proof.
  intros H. induction n as [|n IH]; [simpl; lra|]. rewrite S_INR. simpl.
  assert (0 <= INR n * s) by (apply Rmult_le_pos; auto; apply pos_INR).
  apply Rle_trans with ((1 + s) * (1 + INR n * s)); [nra|apply Rmult_le_compat_l; lra].
Qed.
Lemma gk_up k : INR k * u <= / 2 -> g ^ k <= 1 + 2 * INR k * u.
Proof.
  intros H. assert (B : 1 - INR k * u <= (1 - u) ^ k).
  { clear H. induction k as [|k IH]; [simpl; lra|]. rewrite S_INR. simpl.
    destruct (Rle_dec (1 - INR k * u) 0).
    - assert (0 <= (1 - u) * (1 - u) ^ k) by (apply Rmult_le_pos; [|apply pow_le]; lra).
      assert (0 <= u) by lra. nra.
    - apply Rle_trans with ((1 - u) * (1 - INR k * u)); [|apply Rmult_le_compat_l; lra].
      assert (0 <= INR k * u) by (apply Rmult_le_pos; [apply pos_INR|lra]). nra. }
  assert (0 <= INR k * u) by (apply Rmult_le_pos; [apply pos_INR|lra]).
  unfold g. rewrite pow_inv. apply (Rmult_le_reg_l ((1 - u) ^ k)); [apply pow_lt; lra|].
  rewrite Rinv_r by (apply pow_nonzero; lra). nra.
Qed.
(** Sums: the parts amplify the errors of the operands by at most P and Q. *)
Lemma fac_sum P Q j k x1 x2 t1 t2 : Rabs x1 <= INR P * Rabs (x1 + x2) -> Rabs x2 <= INR Q * Rabs (x1 + x2) ->
  fac j t1 -> fac k t2 -> 4 * INR (P * j + Q * k) ^ 2 * u <= 1 ->
  exists t, x1 * t1 + x2 * t2 = (x1 + x2) * t /\ fac (S (P * j + Q * k)) t.
Proof.
  intros H1 H2 F1 F2 Hk. set (K := (P * j + Q * k)%nat) in *.
  destruct (Req_dec (x1 + x2) 0) as [Z|N].
  { rewrite Z, Rabs_R0, Rmult_0_r in H1, H2.
    assert (x1 = 0) by (destruct (Req_dec x1 0) as [|N]; auto; pose proof (Rabs_pos_lt _ N); lra).
    assert (x2 = 0) by (destruct (Req_dec x2 0) as [|N]; auto; pose proof (Rabs_pos_lt _ N); lra).
    subst. exists 1; split; [ring|apply fac_1]. }
  pose proof (Rabs_pos_lt _ N) as PN.
  exists ((x1 * t1 + x2 * t2) / (x1 + x2)); split; [field; auto|].
  set (s1 := g ^ j - 1). set (s2 := g ^ k - 1).
  assert (S1 : 0 <= s1) by (pose proof (gk j); unfold s1; lra).
  assert (S2 : 0 <= s2) by (pose proof (gk k); unfold s2; lra).
  assert (D : forall i t, fac i t -> Rabs (t - 1) <= g ^ i - 1).
  { intros i t (a & b). apply Rabs_le. split; [|lra].
    pose proof (gk i). pose proof (gkpos i).
    assert (2 - g ^ i <= / g ^ i); [|lra].
    apply (Rmult_le_reg_r (g ^ i)); auto. rewrite Rinv_l by lra. nra. }
  pose proof (D _ _ F1) as D1. pose proof (D _ _ F2) as D2. fold s1 in D1. fold s2 in D2.
  set (S := INR P * s1 + INR Q * s2).
  assert (S0 : 0 <= S) by (unfold S; apply Rplus_le_le_0_compat; apply Rmult_le_pos; auto; apply pos_INR).
  assert (B : Rabs ((x1 * t1 + x2 * t2) / (x1 + x2) - 1) <= S).
  { replace ((x1 * t1 + x2 * t2) / (x1 + x2) - 1) with ((x1 * (t1 - 1) + x2 * (t2 - 1)) / (x1 + x2)) by (field; auto).
    unfold Rdiv. rewrite Rabs_mult, Rabs_inv by auto.
    apply (Rmult_le_reg_r (Rabs (x1 + x2))); auto. rewrite Rmult_assoc, Rinv_l, Rmult_1_r by lra.
    eapply Rle_trans; [apply Rabs_triang|]. rewrite !Rabs_mult.
    replace (S * Rabs (x1 + x2)) with (INR P * Rabs (x1 + x2) * s1 + INR Q * Rabs (x1 + x2) * s2) by (unfold S; ring).
    apply Rplus_le_compat; apply Rmult_le_compat; auto using Rabs_pos. }
  assert (G : 1 + S <= g ^ K).
  { unfold K. rewrite pow_add, (Nat.mul_comm P), (Nat.mul_comm Q), !pow_mult.
    pose proof (bern s1 P S1) as B1. pose proof (bern s2 Q S2) as B2.
    replace (1 + s1) with (g ^ j) in B1 by (unfold s1; ring). replace (1 + s2) with (g ^ k) in B2 by (unfold s2; ring).
    assert (0 <= INR P * s1) by (apply Rmult_le_pos; auto; apply pos_INR).
    assert (0 <= INR Q * s2) by (apply Rmult_le_pos; auto; apply pos_INR).
    apply Rle_trans with ((1 + INR P * s1) * (1 + INR Q * s2)); [unfold S; nra|apply Rmult_le_compat; lra]. }
  assert (SU : S * S <= u).
  { assert (K2 : INR K * u <= / 2).
    { pose proof (pos_INR K). destruct (Rle_dec (INR K * u) (/ 2)); auto. exfalso.
      assert (0 < u) by (destruct (Req_dec u 0) as [E|]; [rewrite E in n; lra|lra]).
      assert (0 < INR K) by nra.
      assert (1 <= INR K) by (destruct K; [simpl in *; lra|rewrite S_INR; pose proof (pos_INR K); lra]).
      simpl in Hk. nra. }
    pose proof (gk_up K K2). assert (S2' : S <= 2 * INR K * u) by lra.
    apply Rle_trans with ((2 * INR K * u) * (2 * INR K * u)); [apply Rmult_le_compat; auto|].
    replace (2 * INR K * u * (2 * INR K * u)) with (4 * INR K ^ 2 * u * u) by ring.
    rewrite <- (Rmult_1_l u) at 3. apply Rmult_le_compat_r; lra. }
  apply rabs_le in B. unfold fac. simpl pow. pose proof g1 as G1. pose proof (gkpos K) as GK. split.
  - apply Rle_trans with (1 - S); [|lra].
    apply (Rmult_le_reg_r (g * g ^ K)); [apply Rmult_lt_0_compat; lra|]. rewrite Rinv_l by (apply Rgt_not_eq, Rmult_lt_0_compat; lra).
    assert (g * (1 - u) = 1) by (unfold g; field; lra).
    assert (L1 : S < 1) by nra.
    apply Rle_trans with ((1 - S) * (g * (1 + S))).
    + replace ((1 - S) * (g * (1 + S))) with (g * (1 - S * S)) by ring. nra.
    + apply Rmult_le_compat_l; [lra|]. apply Rmult_le_compat_l; lra.
  - apply Rle_trans with (1 * g ^ K); [lra|]. apply Rmult_le_compat_r; lra.
Qed.
(** Sums of numbers of the same sign. *)
Lemma fac_add k x1 x2 t1 t2 : 0 <= x1 * x2 -> fac k t1 -> fac k t2 -> exists t, x1 * t1 + x2 * t2 = (x1 + x2) * t /\ fac k t.
Proof.
  intros H F1 F2. destruct (Req_dec (x1 + x2) 0) as [Z|N].
  { assert (x2 = - x1) by lra; subst x2. assert (x1 = 0) by nra. subst. exists 1; split; [ring|apply fac_1]. }
  exists ((x1 * t1 + x2 * t2) / (x1 + x2)); split; [field; auto|].
  destruct F1 as (a1 & b1), F2 as (a2 & b2).
  assert (C : (0 <= x1 /\ 0 <= x2 /\ 0 < x1 + x2) \/ (x1 <= 0 /\ x2 <= 0 /\ x1 + x2 < 0)).
  { destruct (Rle_dec 0 x1), (Rle_dec 0 x2); [left; lra|right|right|right; lra].
    - assert (x1 = 0) by nra. lra.
    - assert (x2 = 0) by nra. lra. }
  set (l := / g ^ k) in *. set (h := g ^ k) in *.
  assert (W : forall a b, 0 <= a -> 0 <= b -> 0 < a + b -> l <= (a * t1 + b * t2) / (a + b) <= h).
  { intros a b Pa Pb Pab.
    assert (a * l <= a * t1) by (apply Rmult_le_compat_l; auto). assert (b * l <= b * t2) by (apply Rmult_le_compat_l; auto).
    assert (a * t1 <= a * h) by (apply Rmult_le_compat_l; auto). assert (b * t2 <= b * h) by (apply Rmult_le_compat_l; auto).
    split; apply (Rmult_le_reg_r (a + b)); auto; unfold Rdiv; rewrite Rmult_assoc, Rinv_l by lra; lra. }
  destruct C as [(p1 & p2 & p3)|(p1 & p2 & p3)].
  - apply W; auto.
  - replace ((x1 * t1 + x2 * t2) / (x1 + x2)) with ((- x1 * t1 + - x2 * t2) / (- x1 + - x2)) by (field; lra).
    apply W; lra.
Qed.
End Rel.

(** ** Functions of a number with a relative error *)
Section Fun.
Variable u : R.
Hypothesis Hu : 0 <= u <= / 1000000.
Notation g := (/ (1 - u)).
Lemma ln_g k : ln (g ^ k) = INR k * ln g.
Proof.
  assert (0 < g) by (apply Rinv_0_lt_compat; lra).
  induction k as [|k IH]; [simpl; rewrite ln_1; ring|]. rewrite S_INR. simpl pow.
  rewrite ln_mult by (auto; apply pow_lt; auto). rewrite IH. ring.
Qed.
Lemma ln_g_lo : u <= ln g.
Proof.
  rewrite ln_Rinv by lra.
  assert (1 - u <= exp (- u)) by (pose proof (exp_ineq1_le (- u)); lra).
  assert (ln (1 - u) <= - u); [|lra].
  rewrite <- (ln_exp (- u)). destruct (Req_dec (1 - u) (exp (- u))) as [->|N]; [lra|].
  left; apply ln_increasing; lra.
Qed.
Lemma fac_ln k t : 0 < t -> fac u k t <-> Rabs (ln t) <= INR k * ln g.
Proof.
  intros Ht. rewrite <- ln_g. pose proof (gkpos u Hu k) as P. unfold fac. split.
  - intros (a & b). apply Rabs_le. pose proof (Rinv_0_lt_compat _ P).
    assert (Q : ln (/ g ^ k) <= ln t) by (destruct (Req_dec (/ g ^ k) t) as [->|N]; [lra|left; apply ln_increasing; lra]).
    rewrite ln_Rinv in Q by auto. split; [lra|].
    destruct (Req_dec t (g ^ k)) as [->|N]; [lra|left; apply ln_increasing; lra].
  - intros H. apply rabs_le in H. destruct H as (a & b).
    rewrite <- ln_Rinv in a by auto. split.
    + rewrite <- (exp_ln (/ g ^ k)) by (apply Rinv_0_lt_compat; auto). rewrite <- (exp_ln t) by auto.
      destruct a as [a|a]; [left; apply exp_increasing; auto|rewrite a; lra].
    + rewrite <- (exp_ln (g ^ k)) by auto. rewrite <- (exp_ln t) at 1 by auto.
      destruct b as [b|b]; [left; apply exp_increasing; auto|rewrite b; lra].
Qed.
Lemma fac_exp k c : Rabs c <= INR k * u -> fac u k (exp c).
Proof.
  intros H. apply fac_ln; [apply exp_pos|]. rewrite ln_exp.
  eapply Rle_trans; eauto. apply Rmult_le_compat_l; [apply pos_INR|apply ln_g_lo].
Qed.
Lemma fac_Rpower B k t c : Rabs c <= INR B -> fac u k t -> fac u (B * k) (Rpower t c).
Proof.
  intros H F. pose proof (fac_pos u Hu _ _ F) as P. apply fac_ln; [apply exp_pos|].
  unfold Rpower. rewrite ln_exp, Rabs_mult, mult_INR, Rmult_assoc.
  apply Rmult_le_compat; auto using Rabs_pos. apply fac_ln; auto.
Qed.
Lemma fac_dev k t : INR k * u <= / 2 -> fac u k t -> Rabs (t - 1) <= 2 * INR k * u.
Proof.
  intros H (a & b). pose proof (gk_up u Hu k H) as G. pose proof (gk u Hu k) as G1. pose proof (gkpos u Hu k).
  apply Rabs_le. split; [|lra].
  assert (2 - g ^ k <= / g ^ k); [|lra].
  apply (Rmult_le_reg_r (g ^ k)); auto. rewrite Rinv_l by lra. nra.
Qed.
Lemma fac_rounded k t x : (k < 1000)%nat -> fac u k t -> rounded u (S k) x (x * t).
Proof.
  intros L (a & b). unfold rounded. replace (x * t - x) with ((t - 1) * x) by ring. rewrite Rabs_mult.
  apply Rmult_le_compat_r; [apply Rabs_pos|].
  assert (L' : INR k <= 999) by (replace 999 with (INR 999) by (rewrite INR_IZR_INZ; reflexivity); apply le_INR; lia).
  pose proof (pos_INR k) as P.
  assert (KU : INR k * u <= 999 * / 1000000) by (apply Rmult_le_compat; lra).
  assert (B : 1 - INR k * u <= (1 - u) ^ k).
  { clear - Hu. induction k as [|k IH]; [simpl; lra|]. rewrite S_INR. simpl.
    destruct (Rle_dec (1 - INR k * u) 0).
    - assert (0 <= (1 - u) * (1 - u) ^ k) by (apply Rmult_le_pos; [|apply pow_le]; lra).
      assert (0 <= u) by lra. nra.
    - apply Rle_trans with ((1 - u) * (1 - INR k * u)); [|apply Rmult_le_compat_l; lra].
      assert (0 <= INR k * u) by (apply Rmult_le_pos; [apply pos_INR|lra]). nra. }
  assert (U : g ^ k <= 1 + INR (S k) * u).
  { rewrite S_INR, pow_inv. apply (Rmult_le_reg_l ((1 - u) ^ k)); [apply pow_lt; lra|].
    rewrite Rinv_r by (apply pow_nonzero; lra).
    apply Rle_trans with ((1 - INR k * u) * (1 + (INR k + 1) * u)).
    - assert (INR k * ((INR k + 1) * u) <= 1); [|nra].
      assert ((INR k + 1) * u <= / 1000) by nra. nra.
    - apply Rmult_le_compat_r; [|lra]. assert (0 <= (INR k + 1) * u) by (apply Rmult_le_pos; lra). lra. }
  apply Rabs_le. pose proof (gk u Hu k). pose proof (gkpos u Hu k). split; [|lra].
  assert (2 - g ^ k <= / g ^ k); [|lra].
  apply (Rmult_le_reg_r (g ^ k)); auto. rewrite Rinv_l by lra. nra.
Qed.
End Fun.

(** ** Expressions: vs are the names with their exact and computed values. *)
Section Acc.
Variables (m : mode) (u : R).
Hypothesis Hu : 0 <= u <= / 1000000.
Definition acc (vs : list (R * R)) (e : expr) (k : nat) (x : R) : Prop :=
  ev m (map Fin (map fst vs)) e = Fin x /\
  forall y, fev u (map snd vs) e y -> exists t, y = Some (x * t) /\ fac u k t.
Implicit Types vs : list (R * R).
Lemma acc_var0 vs n x : nth_error vs n = Some (x, x) -> acc vs (EVar n) 0 x.
Proof.
  intros H. assert (L : (n < length vs)%nat) by (apply nth_error_Some; congruence).
  pose proof (nth_error_nth _ _ (0, 0) H) as E. split.
  - simpl. rewrite (nth_indep _ Und (Fin 0)) by (rewrite !map_length; auto).
    rewrite map_nth. change 0 with (fst (0, 0)). rewrite map_nth, E. reflexivity.
  - intros y ->. exists 1; split; [|apply fac_1; auto].
    change 0 with (snd (0, 0)). rewrite map_nth, E. simpl. f_equal; ring.
Qed.
Lemma acc_var vs n x t k : nth_error vs n = Some (x, x * t) -> fac u k t -> acc vs (EVar n) k x.
Proof.
  intros H F. assert (L : (n < length vs)%nat) by (apply nth_error_Some; congruence).
  pose proof (nth_error_nth _ _ (0, 0) H) as E. split.
  - simpl. rewrite (nth_indep _ Und (Fin 0)) by (rewrite !map_length; auto).
    rewrite map_nth. change 0 with (fst (0, 0)). rewrite map_nth, E. reflexivity.
  - intros y ->. exists t; split; auto.
    change 0 with (snd (0, 0)). rewrite map_nth, E. reflexivity.
Qed.
Lemma acc_int vs z : (Z.abs z <= 2 ^ 53)%Z -> acc vs (ELit (IZR z)) 0 (IZR z).
Proof.
  intros H; split; [reflexivity|]. intros y (y' & -> & (_ & K)). rewrite K by eauto.
  exists 1; split; [f_equal; ring|apply fac_1; auto].
Qed.
Lemma acc_lit vs r : acc vs (ELit r) 1 r.
Proof.
  split; [reflexivity|]. intros y (y' & -> & (N & _)). destruct (fac_near u Hu _ _ N) as (t & -> & F); eauto.
Qed.
Lemma acc_le vs e j k x : (j <= k)%nat -> acc vs e j x -> acc vs e k x.
Proof.
  intros L (E & H); split; auto. intros y Hy. destruct (H y Hy) as (t & -> & F). exists t; split; auto.
  eapply fac_le; eauto.
Qed.
Lemma acc_eq vs e k x x' : x = x' -> acc vs e k x -> acc vs e k x'.
Proof. intros <-; auto. Qed.
(** One operation. *)
Lemma acc_op2 vs o e1 e2 j k x1 x2 n :
  acc vs e1 j x1 -> acc vs e2 k x2 -> o <> OMaximum -> sem2 m o (Fin x1) (Fin x2) = Fin (rsem2 o x1 x2) ->
  (forall t1 t2, fac u j t1 -> fac u k t2 ->
     def2 o (x1 * t1) (x2 * t2) /\ exists t, rsem2 o (x1 * t1) (x2 * t2) = rsem2 o x1 x2 * t /\ fac u n t) ->
  acc vs (EOp2 o e1 e2) (S n) (rsem2 o x1 x2).
Proof.
  intros (E1 & H1) (E2 & H2) Ho Hs K; split.
  - simpl. rewrite E1, E2; auto.
  - intros y (y1 & y2 & Hy1 & Hy2 & Hy). destruct (H1 _ Hy1) as (t1 & -> & F1). destruct (H2 _ Hy2) as (t2 & -> & F2).
    destruct (K _ _ F1 F2) as (D & t & Et & Ft).
    destruct Hy as [(_ & y' & -> & Hr)|(N & _)]; [|contradiction].
    assert (Nr : near u (rsem2 o (x1 * t1) (x2 * t2)) y') by (destruct o; auto; congruence).
    rewrite Et in Nr. destruct (fac_near u Hu _ _ Nr) as (t' & -> & F').
    exists (t' * t); split; [f_equal; ring|apply (fac_mul u Hu 1 n); auto].
Qed.
Lemma acc_op1 vs o e j x n :
  acc vs e j x -> o <> ONeg -> sem1 o (Fin x) = Fin (rsem1 o x) ->
  (forall t, fac u j t -> def1 o (x * t) /\ exists t', rsem1 o (x * t) = rsem1 o x * t' /\ fac u n t') ->
  acc vs (EOp1 o e) (S n) (rsem1 o x).
Proof.
  intros (E1 & H1) Ho Hs K; split.
  - simpl. rewrite E1; auto.
  - intros y (y1 & Hy1 & Hy). destruct (H1 _ Hy1) as (t1 & -> & F1).
    destruct (K _ F1) as (D & t & Et & Ft).
    destruct Hy as [(_ & y' & -> & Hr)|(N & _)]; [|contradiction].
    assert (Nr : near u (rsem1 o (x * t1)) y') by (destruct o; auto; congruence).
    rewrite Et in Nr. destruct (fac_near u Hu _ _ Nr) as (t' & -> & F').
    exists (t' * t); split; [f_equal; ring|apply (fac_mul u Hu 1 n); auto].
Qed.
Lemma acc_neg vs e k x : acc vs e k x -> acc vs (EOp1 ONeg e) k (- x).
Proof.
  intros (E & H); split; [simpl; rewrite E; reflexivity|].
  intros y (y1 & Hy1 & Hy). destruct (H _ Hy1) as (t1 & -> & F1).
  destruct Hy as [(_ & y' & -> & Hr)|(N & _)]; [|destruct N; exact I].
  exists t1; split; auto. simpl in Hr. rewrite Hr; f_equal; ring.
Qed.
Lemma acc_mul vs e1 e2 j k x1 x2 : acc vs e1 j x1 -> acc vs e2 k x2 -> acc vs (EOp2 OMul e1 e2) (S (j + k)) (x1 * x2).
Proof.
  intros H1 H2. apply (acc_op2 vs OMul e1 e2 j k); auto; [discriminate|].
  intros t1 t2 F1 F2; split; [exact I|]. exists (t1 * t2); split; [simpl; ring|apply fac_mul; auto].
Qed.
Lemma acc_divs vs o e1 e2 j k x1 x2 : o = ODiv \/ o = ODivN -> acc vs e1 j x1 -> acc vs e2 k x2 -> x2 <> 0 ->
  acc vs (EOp2 o e1 e2) (S (j + k)) (x1 / x2).
Proof.
  intros Ho H1 H2 N.
  replace (x1 / x2) with (rsem2 o x1 x2) by (destruct Ho; subst; reflexivity).
  apply (acc_op2 vs o e1 e2 j k); auto.
  - destruct Ho; subst; discriminate.
  - destruct Ho; subst; simpl; destruct Req_EM_T; auto; contradiction.
  - intros t1 t2 F1 F2. pose proof (fac_pos u Hu _ _ F2) as P2.
    assert (N2 : x2 * t2 <> 0) by (apply Rmult_integral_contrapositive; lra).
    split; [destruct Ho; subst; auto|].
    exists (t1 * / t2); split.
    + destruct Ho; subst; simpl; field; lra.
    + apply fac_mul; auto. apply fac_inv; auto.
Qed.
Lemma acc_div vs e1 e2 j k x1 x2 : acc vs e1 j x1 -> acc vs e2 k x2 -> x2 <> 0 -> acc vs (EOp2 ODiv e1 e2) (S (j + k)) (x1 / x2).
Proof. intros; apply acc_divs; auto. Qed.
Lemma acc_divN vs e1 e2 j k x1 x2 : acc vs e1 j x1 -> acc vs e2 k x2 -> x2 <> 0 -> acc vs (EOp2 ODivN e1 e2) (S (j + k)) (x1 / x2).
Proof. intros; apply acc_divs; auto. Qed.
(** Terms of the same sign. *)
Lemma acc_add vs e1 e2 j k x1 x2 : acc vs e1 j x1 -> acc vs e2 k x2 -> 0 <= x1 * x2 ->
  acc vs (EOp2 OAdd e1 e2) (S (max j k)) (x1 + x2).
Proof.
  intros H1 H2 P. apply (acc_op2 vs OAdd e1 e2 j k); auto; [discriminate|].
  intros t1 t2 F1 F2; split; [exact I|]. apply fac_add; auto; (eapply fac_le; [auto| |eauto]); lia.
Qed.
Lemma acc_subopp vs e1 e2 j k x1 x2 : acc vs e1 j x1 -> acc vs e2 k x2 -> x1 * x2 <= 0 ->
  acc vs (EOp2 OSub e1 e2) (S (max j k)) (x1 - x2).
Proof.
  intros H1 H2 P. apply (acc_op2 vs OSub e1 e2 j k); auto; [discriminate|].
  intros t1 t2 F1 F2; split; [exact I|]. simpl.
  destruct (fac_add u Hu (max j k) x1 (- x2) t1 t2) as (t & Et & Ft).
  - lra.
  - eapply fac_le; [auto| |eauto]; lia.
  - eapply fac_le; [auto| |eauto]; lia.
  - exists t; split; auto. lra.
Qed.
(** Exact operands. *)
Lemma fac0 t : fac u 0 t -> t = 1.
Proof. intros (a & b); simpl in *; rewrite Rinv_1 in a; lra. Qed.
Lemma acc_add0 vs e1 e2 x1 x2 : acc vs e1 0 x1 -> acc vs e2 0 x2 -> acc vs (EOp2 OAdd e1 e2) 1 (x1 + x2).
Proof.
  intros H1 H2. apply (acc_op2 vs OAdd e1 e2 0 0 x1 x2 0); auto; [discriminate|].
  intros t1 t2 F1 F2; split; [exact I|]. rewrite (fac0 _ F1), (fac0 _ F2). exists 1; split; [simpl; ring|apply fac_1; auto].
Qed.
Lemma acc_sub0 vs e1 e2 x1 x2 : acc vs e1 0 x1 -> acc vs e2 0 x2 -> acc vs (EOp2 OSub e1 e2) 1 (x1 - x2).
Proof.
  intros H1 H2. apply (acc_op2 vs OSub e1 e2 0 0 x1 x2 0); auto; [discriminate|].
  intros t1 t2 F1 F2; split; [exact I|]. rewrite (fac0 _ F1), (fac0 _ F2). exists 1; split; [simpl; ring|apply fac_1; auto].
Qed.
(** Cancellation: the difference is at least 1/P of the first and 1/Q of the second operand. *)
Lemma acc_sub P Q vs e1 e2 j k x1 x2 : acc vs e1 j x1 -> acc vs e2 k x2 ->
  Rabs x1 <= INR P * Rabs (x1 - x2) -> Rabs x2 <= INR Q * Rabs (x1 - x2) -> (P * j + Q * k <= 500)%nat ->
  acc vs (EOp2 OSub e1 e2) (S (S (P * j + Q * k))) (x1 - x2).
Proof.
  intros H1 H2 A1 A2 L. apply (acc_op2 vs OSub e1 e2 j k); auto; [discriminate|].
  intros t1 t2 F1 F2; split; [exact I|].
  destruct (fac_sum u Hu P Q j k x1 (- x2) t1 t2) as (t & Et & Ft); auto.
  - rewrite Rabs_Ropp; auto.
  - apply le_INR in L. pose proof (pos_INR (P * j + Q * k)).
    replace (INR 500) with 500 in L by (rewrite INR_IZR_INZ; reflexivity).
    assert (INR (P * j + Q * k) ^ 2 <= 500 ^ 2) by (apply pow_incr; lra). nra.
  - exists t; split; auto. simpl. lra.
Qed.
Lemma acc_addc P Q vs e1 e2 j k x1 x2 : acc vs e1 j x1 -> acc vs e2 k x2 ->
  Rabs x1 <= INR P * Rabs (x1 + x2) -> Rabs x2 <= INR Q * Rabs (x1 + x2) -> (P * j + Q * k <= 500)%nat ->
  acc vs (EOp2 OAdd e1 e2) (S (S (P * j + Q * k))) (x1 + x2).
Proof.
  intros H1 H2 A1 A2 L. apply (acc_op2 vs OAdd e1 e2 j k); auto; [discriminate|].
  intros t1 t2 F1 F2; split; [exact I|].
  apply (fac_sum u Hu P Q j k x1 x2 t1 t2); auto.
  apply le_INR in L. pose proof (pos_INR (P * j + Q * k)).
  replace (INR 500) with 500 in L by (rewrite INR_IZR_INZ; reflexivity).
  assert (INR (P * j + Q * k) ^ 2 <= 500 ^ 2) by (apply pow_incr; lra). nra.
Qed.
(** The difference of two positive numbers that is at least 1/P of the first. *)
Lemma acc_subp P vs e1 e2 j k x1 x2 : acc vs e1 j x1 -> acc vs e2 k x2 -> 0 <= x2 <= x1 -> x1 <= INR P * (x1 - x2) -> (1 <= P)%nat ->
  (P * j + (P - 1) * k <= 500)%nat -> acc vs (EOp2 OSub e1 e2) (S (S (P * j + (P - 1) * k))) (x1 - x2).
Proof.
  intros H1 H2 A B L M. apply acc_sub; auto.
  - rewrite !Rabs_right by lra; auto.
  - rewrite minus_INR, !Rabs_right by (auto; lra). simpl (INR 1). lra.
Qed.
Lemma acc_sqrt vs e k x : acc vs e k x -> 0 <= x -> acc vs (EOp1 OSqrt e) (S k) (sqrt x).
Proof.
  intros H P. apply (acc_op1 vs OSqrt e k); auto; [discriminate|simpl; destruct Rle_dec; auto; contradiction|].
  intros t F. pose proof (fac_pos u Hu _ _ F). split; [simpl; apply Rmult_le_pos; lra|].
  exists (sqrt t); split; [simpl; apply sqrt_mult; lra|apply fac_sqrt; auto].
Qed.
Lemma acc_pown vs e k x n : acc vs e k x -> acc vs (EOp1 (OPown n) e) (S (n * k)) (x ^ n).
Proof.
  intros H. apply (acc_op1 vs (OPown n) e k); auto; [discriminate|].
  intros t F. split; [exact I|]. exists (t ^ n); split; [simpl; apply Rpow_mult_distr|apply fac_pow; auto].
Qed.
Lemma acc_exp L vs e k x : acc vs e k x -> Rabs x <= INR L -> (k <= 500)%nat -> acc vs (EOp1 OExp e) (S (L * (2 * k))) (exp x).
Proof.
  intros H A Lk. apply (acc_op1 vs OExp e k); auto; [discriminate|].
  intros t F. split; [exact I|]. exists (exp (x * (t - 1))); split.
  - simpl. rewrite <- exp_plus. f_equal; ring.
  - apply fac_exp; auto. rewrite Rabs_mult, !mult_INR. simpl (INR 2).
    replace (INR L * ((1 + 1) * INR k) * u) with (INR L * (2 * INR k * u)) by ring.
    apply Rmult_le_compat; auto using Rabs_pos. apply fac_dev; auto.
    apply le_INR in Lk. replace (INR 500) with 500 in Lk by (rewrite INR_IZR_INZ; reflexivity).
    pose proof (pos_INR k). assert (INR k * u <= 500 * / 1000000) by (apply Rmult_le_compat; lra). lra.
Qed.
(** Real powers: an exact exponent, or a rounded one, in which case the size of ln x counts. *)
Lemma acc_pow0 B vs o e1 e2 k x b : o = OPow \/ o = OPowN -> acc vs e1 k x -> acc vs e2 0 b -> 0 < x -> Rabs b <= INR B ->
  acc vs (EOp2 o e1 e2) (S (B * k)) (Rpower x b).
Proof.
  intros Ho H1 H2 P A. replace (Rpower x b) with (rsem2 o x b) by (destruct Ho; subst; reflexivity).
  apply (acc_op2 vs o e1 e2 k 0); auto.
  - destruct Ho; subst; discriminate.
  - destruct Ho; subst; simpl; destruct Rlt_dec; auto; contradiction.
  - intros t1 t2 F1 F2. rewrite (fac0 _ F2), Rmult_1_r. pose proof (fac_pos u Hu _ _ F1) as P1.
    split; [destruct Ho; subst; simpl; apply Rmult_lt_0_compat; auto|].
    exists (Rpower t1 b); split; [|apply fac_Rpower; auto].
    destruct Ho; subst; simpl; symmetry; apply Rpower_mult_distr; auto.
Qed.
Lemma acc_pow1 B L vs o e1 e2 k x b : o = OPow \/ o = OPowN -> acc vs e1 k x -> acc vs e2 1 b -> 0 < x ->
  1.001 * Rabs b <= INR B -> 1.001 * Rabs (b * ln x) <= INR L ->
  acc vs (EOp2 o e1 e2) (S (L + B * k)) (Rpower x b).
Proof.
  intros Ho H1 H2 P A A2. replace (Rpower x b) with (rsem2 o x b) by (destruct Ho; subst; reflexivity).
  apply (acc_op2 vs o e1 e2 k 1); auto.
  - destruct Ho; subst; discriminate.
  - destruct Ho; subst; simpl; destruct Rlt_dec; auto; contradiction.
  - intros t1 t2 F1 F2. pose proof (fac_pos u Hu _ _ F1) as P1.
    assert (D : Rabs (t2 - 1) <= 1.001 * u).
    { destruct F2 as (a & b'). rewrite pow_1 in a, b'. rewrite Rinv_inv in a.
      assert (/ (1 - u) <= 1 + 1.001 * u); [|apply Rabs_le; lra].
      apply (Rmult_le_reg_r (1 - u)); [lra|]. rewrite Rinv_l by lra. nra. }
    split; [destruct Ho; subst; simpl; apply Rmult_lt_0_compat; auto|].
    exists (exp (b * ln x * (t2 - 1)) * Rpower t1 (b * t2)); split.
    + replace (rsem2 o (x * t1) (b * t2)) with (Rpower (x * t1) (b * t2)) by (destruct Ho; subst; reflexivity).
      replace (rsem2 o x b) with (Rpower x b) by (destruct Ho; subst; reflexivity).
      rewrite <- (Rpower_mult_distr x t1) by auto. rewrite <- Rmult_assoc. f_equal. unfold Rpower.
      rewrite <- exp_plus. f_equal; ring.
    + apply fac_mul; auto.
      * apply fac_exp; auto. rewrite Rabs_mult.
        apply Rle_trans with (Rabs (b * ln x) * (1.001 * u)); [apply Rmult_le_compat_l; auto using Rabs_pos|].
        replace (Rabs (b * ln x) * (1.001 * u)) with (1.001 * Rabs (b * ln x) * u) by ring.
        apply Rmult_le_compat_r; lra.
      * apply fac_Rpower; auto. rewrite Rabs_mult. apply rabs_le in D.
        apply Rle_trans with (Rabs b * 1.001); [|lra]. apply Rmult_le_compat_l; [apply Rabs_pos|].
        apply Rabs_le; lra.
Qed.

(** ** Programs *)
Definition accp (vs : list (R * R)) (p : prog) (rs : list (R * nat)) : Prop :=
  run m p (map Fin (map fst vs)) = Ret (map Fin (map fst rs)) /\
  forall ys, fprog u p (map snd vs) ys ->
    exists ys', ys = Some ys' /\ Forall2 (fun r y => exists t, y = fst r * t /\ fac u (snd r) t) rs ys'.
Lemma accp_let vs e p k x rs : acc vs e k x -> (forall t, fac u k t -> accp (vs ++ [(x, x * t)]) p rs) -> accp vs (PLet e p) rs.
Proof.
  intros (E & H) K. split.
  - simpl. rewrite E. simpl. destruct (K 1 (fac_1 u Hu k)) as (R & _). rewrite !map_app in R. exact R.
  - intros ys (x' & Hx & Hy). destruct (H _ Hx) as (t & -> & F). destruct (K t F) as (_ & R).
    apply R. rewrite map_app. exact Hy.
Qed.
Lemma accp_nil vs : accp vs (PRet []) [].
Proof. split; [reflexivity|]. intros ys ->. exists []; split; auto. Qed.
Lemma accp_cons vs e es k x rs : acc vs e k x -> accp vs (PRet es) rs -> accp vs (PRet (e :: es)) ((x, k) :: rs).
Proof.
  intros (E & H) (E' & H'). split.
  - simpl in *. rewrite E. simpl. rewrite E'. reflexivity.
  - intros ys (y & z & Hy & Hz & ->). destruct (H _ Hy) as (t & -> & F). destruct (H' _ Hz) as (zs & -> & F').
    eexists; split; [reflexivity|]. constructor; auto. simpl; eauto.
Qed.
Lemma accp_accurate xs p rs ns o ys : accp (map (fun x => (x, x)) xs) p rs -> run m p (map Fin xs) = o ->
  Forall2 (fun r n => (snd r < n <= 1000)%nat) rs ns -> fprog u p xs ys -> accurate u o ns ys.
Proof.
  intros (E & H) <- L Hy.
  assert (X1 : map fst (map (fun x : R => (x, x)) xs) = xs) by (rewrite map_map; apply map_id).
  assert (X2 : map snd (map (fun x : R => (x, x)) xs) = xs) by (rewrite map_map; apply map_id).
  rewrite X1 in E. rewrite X2 in H. destruct (H _ Hy) as (ys' & -> & F).
  exists (map fst rs), ys'. repeat split; auto.
  - rewrite map_length. clear - L. induction L; simpl; auto.
  - clear - F L Hu. revert ns L. induction F as [|r y rs ys (t & -> & F) Fs IH]; intros ns L; inversion L; subst; simpl; constructor; auto.
    simpl. assert (R : rounded u (S (snd r)) (fst r) (fst r * t)) by (apply fac_rounded; auto; lia).
    unfold rounded in *. eapply Rle_trans; eauto. apply Rmult_le_compat_r; [apply Rabs_pos|].
    apply Rmult_le_compat_r; [lra|]. apply le_INR; lia.
Qed.
End Acc.

(** The structural steps; what is left are the sums and differences that may cancel, powers, and facts about exact values. *)
Ltac ac :=
  lazymatch goal with
  | |- acc _ _ _ (EVar _) _ _ => first [eapply acc_var0; [eassumption|reflexivity] | eapply acc_var; [reflexivity|eassumption]]
  | |- acc _ _ _ (ELit (IZR _)) _ _ => eapply acc_int; [eassumption|vm_compute; discriminate]
  | |- acc _ _ _ (ELit _) _ _ => eapply acc_lit; eassumption
  | |- acc _ _ _ (EOp1 ONeg _) _ _ => eapply acc_neg; ac
  | |- acc _ _ _ (EOp1 OSqrt _) _ _ => eapply acc_sqrt; [eassumption|ac|]
  | |- acc _ _ _ (EOp1 (OPown _) _) _ _ => eapply acc_pown; [eassumption|ac]
  | |- acc _ _ _ (EOp2 OMul _ _) _ _ => eapply acc_mul; [eassumption|ac|ac]
  | |- acc _ _ _ (EOp2 ODiv _ _) _ _ => eapply acc_div; [eassumption|ac|ac|]
  | |- acc _ _ _ (EOp2 ODivN _ _) _ _ => eapply acc_divN; [eassumption|ac|ac|]
  | |- acc _ _ _ (EOp2 OAdd _ _) _ _ => first [eapply acc_add0; [eassumption|ac|ac] | eapply acc_add; [eassumption|ac|ac|]]
  | |- acc _ _ _ (EOp2 OSub _ _) _ _ => first [eapply acc_sub0; [eassumption|ac|ac] | idtac]
  | |- acc _ _ _ _ _ _ => idtac
  end.
