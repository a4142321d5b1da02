(** * Property theorems about Perm.py (C47-C49, C66, C67). *)
From Verif Require Import Fl M_Perm RealLemmas.
Open Scope R_scope.

(** Kozeny-Carman permeability of a pack of spheres of diameter [d]. *)
Definition kozeny_carman (phi d : R) : R := d^2 * phi^3 / (180 * (1 - phi)^2).

Local Ltac ev := repeat (first [fl1 | rewrite fdiv_fin by (assumption || lra || nz)]; cbv beta zeta).

Lemma KC_fin m phi d : phi <> 1 -> Perm_Kozeny_Carman m (Fin phi) (Fin d) = Ret (Fin (kozeny_carman phi d)).
Proof.
  intros H. unfold Perm_Kozeny_Carman, kozeny_carman. assert ((1 - phi)^2 <> 0) by (apply pow_nonzero; lra).
  ev. reteq. field. lra.
Qed.
Lemma frac_incr n x y : 0 <= x -> x < y -> y < 1 -> x^(S n) / (1 - x)^2 < y^(S n) / (1 - y)^2.
Proof.
  intros H0 L H1.
  assert (A : x^(S n) < y^(S n)).
  { simpl. apply Rle_lt_trans with (x * y^n); [apply Rmult_le_compat_l; [lra|apply pow_incr; lra]|apply Rmult_lt_compat_r; [apply pow_lt; lra|lra]]. }
  assert (B : 0 <= x^(S n)) by (apply pow_le; lra).
  assert (C : 0 < (1 - y)^2) by (apply pow_lt; lra). assert (D : (1 - y)^2 < (1 - x)^2) by nra.
  apply Rle_lt_trans with (x^(S n) / (1 - y)^2).
  - apply Rmult_le_compat_l; [exact B|]. apply Rinv_le_contravar; lra.
  - apply Rmult_lt_compat_r; [apply Rinv_0_lt_compat, C|exact A].
Qed.

(** ** C47 *)
Theorem C47_kozeny_carman :
  forall m phi d, 0 <= phi < 1 -> 0 < d ->
  exists k, Perm_Kozeny_Carman m (Fin phi) (Fin d) = Ret (Fin k) /\ k = kozeny_carman phi d /\ 0 <= k /\ (0 < phi -> 0 < k) /\
    (forall l, Perm_Kozeny_Carman m (Fin phi) (Fin (l * d)) = Ret (Fin (l^2 * k))) /\
    (forall phi', phi < phi' < 1 -> exists k', Perm_Kozeny_Carman m (Fin phi') (Fin d) = Ret (Fin k') /\ k < k') /\
    Perm_Panda_Lake_cem m (Fin phi) (Fin d) = Ret (Fin (334/100 * 180 * k)) /\
    Perm_Kozeny_Carman_Percolation m (Fin phi) (Fin 0) (Fin d) (Fin (1/180)) = Ret (Fin k).
Proof.
  intros m phi d Hp Hd. rewrite KC_fin by lra. eexists. split; [reflexivity|]. split; [reflexivity|].
  assert (Q : 0 < (1 - phi)^2) by (apply pow_lt; lra). assert (D2 : 0 < d^2) by (apply pow_lt; lra).
  assert (P3 : 0 <= phi^3) by (apply pow_le; lra).
  split; [apply Rmult_le_pos; [apply Rmult_le_pos; lra|left; apply Rinv_0_lt_compat; lra]|].
  split; [intros; apply Rdiv_lt_0_compat; [apply Rmult_lt_0_compat; [lra|apply pow_lt; lra]|lra]|].
  split; [intros l; rewrite KC_fin by lra; reteq; unfold kozeny_carman; field; lra|].
  split.
  { intros phi' L. rewrite KC_fin by lra. eexists. split; [reflexivity|].
    assert (F := frac_incr 2 phi phi' ltac:(lra) ltac:(lra) ltac:(lra)).
    unfold kozeny_carman. replace (d ^ 2 * phi ^ 3 / (180 * (1 - phi) ^ 2)) with (d^2 / 180 * (phi^3 / (1 - phi)^2)) by (field; lra).
    replace (d ^ 2 * phi' ^ 3 / (180 * (1 - phi') ^ 2)) with (d^2 / 180 * (phi'^3 / (1 - phi')^2)) by (field; lra).
    apply Rmult_lt_compat_l; [lra|exact F]. }
  split.
  - unfold Perm_Panda_Lake_cem. assert ((1 - phi)^2 <> 0) by lra. ev. reteq. unfold kozeny_carman. field. lra.
  - unfold Perm_Kozeny_Carman_Percolation. assert ((1 + 0 - phi)^2 <> 0) by (apply pow_nonzero; lra). ev. reteq. unfold kozeny_carman. field. lra.
Qed.
Print Assumptions C47_kozeny_carman.
Theorem C47_percolation :
  forall m phi phic d B, 0 <= phic -> phi < 1 + phic -> 0 < d -> 0 < B ->
  exists k, Perm_Kozeny_Carman_Percolation m (Fin phi) (Fin phic) (Fin d) (Fin B) = Ret (Fin k) /\
    k = 180 * B * kozeny_carman (phi - phic) d /\ (phi = phic -> k = 0) /\
    (phic <= phi -> 0 <= k /\ Perm_Kozeny_Carman_Percolation m (Fin (phi - phic)) (Fin 0) (Fin d) (Fin B) = Ret (Fin k)) /\
    (forall phi', phic <= phi -> phi < phi' < 1 + phic ->
       exists k', Perm_Kozeny_Carman_Percolation m (Fin phi') (Fin phic) (Fin d) (Fin B) = Ret (Fin k') /\ k < k').
Proof.
  intros m phi phic d B Hc Hp Hd HB.
  assert (V : forall x c, x < 1 + c -> Perm_Kozeny_Carman_Percolation m (Fin x) (Fin c) (Fin d) (Fin B) =
     Ret (Fin (B * d^2 * ((x - c)^3 / (1 - (x - c))^2)))).
  { intros x c L. unfold Perm_Kozeny_Carman_Percolation. assert ((1 + c - x)^2 <> 0) by (apply pow_nonzero; lra).
    ev. reteq. field. lra. }
  rewrite !V by lra. eexists. split; [reflexivity|].
  assert (D2 : 0 < B * d^2) by (apply Rmult_lt_0_compat; [lra|apply pow_lt; lra]).
  split; [unfold kozeny_carman; field; lra|]. split; [intros ->; field; lra|]. split.
  - intros L. split.
    + apply Rmult_le_pos; [lra|]. apply Rmult_le_pos; [apply pow_le; lra|left; apply Rinv_0_lt_compat, pow_lt; lra].
    + rewrite Rminus_0_r. reflexivity.
  - intros phi' L L'. rewrite V by lra. eexists. split; [reflexivity|]. apply Rmult_lt_compat_l; [lra|].
    apply frac_incr; lra.
Qed.
Print Assumptions C47_percolation.
(** Below the percolation porosity the result is a negative permeability rather than zero. *)
Theorem C47_below_percolation_refuted :
  forall m phi phic d B, phi < phic -> 0 < d -> 0 < B ->
  exists k, Perm_Kozeny_Carman_Percolation m (Fin phi) (Fin phic) (Fin d) (Fin B) = Ret (Fin k) /\ k < 0.
Proof.
  intros m phi phic d B L Hd HB. unfold Perm_Kozeny_Carman_Percolation.
  assert (Q : 0 < (1 + phic - phi)^2) by (apply pow_lt; lra). assert ((1 + phic - phi)^2 <> 0) by lra. ev.
  eexists. split; [reflexivity|]. assert (0 < (phic - phi)^3) by (apply pow_lt; lra).
  assert (0 < B * d^2) by (apply Rmult_lt_0_compat; [lra|apply pow_lt; lra]).
  apply Ropp_lt_cancel. rewrite Ropp_0.
  replace (- (B * d ^ 2 * (phi - phic) ^ 3 / (1 + phic - phi) ^ 2)) with (B * d^2 * (phic - phi)^3 / (1 + phic - phi)^2) by (field; lra).
  apply Rdiv_lt_0_compat; [apply Rmult_lt_0_compat; lra|lra].
Qed.
Print Assumptions C47_below_percolation_refuted.
(** A porosity of 1 is outside the domain. *)
Theorem C47_void_raises :
  forall d, Perm_Kozeny_Carman PyFloat (Fin 1) (Fin d) = Raise ZeroDivisionError.
Proof.
  intros d. unfold Perm_Kozeny_Carman. ev. replace ((1 - 1)^2) with 0 by ring. rewrite fdiv_zero_py_fin. reflexivity.
Qed.
Print Assumptions C47_void_raises.
Example C47_nonvacuous : 0 <= 0.02 /\ 0.1 < 1 + 0.02 /\ 0.01 < 0.02 /\ 0 < 250 /\ 0 < 1/180. Proof. lra. Qed.

(** ** C48 *)
Theorem C48_panda_lake :
  forall m d C S tau phi, 0 < d -> 0 < tau -> 0 < phi < 1 ->
  exists k, Perm_Panda_Lake m (Fin d) (Fin C) (Fin S) (Fin tau) (Fin phi) = Ret (Fin k) /\ 0 <= k /\
    k = kozeny_carman phi d * (5 / (2 * tau)) * ((C^3 * S + 3 * C^2 + 1) / (C^2 + 1))^2 /\
    (C = 0 -> tau = 5/2 -> Perm_Kozeny_Carman m (Fin phi) (Fin d) = Ret (Fin k)) /\
    (S = 0 -> kozeny_carman phi d * (5 / (2 * tau)) <= k < 9 * (kozeny_carman phi d * (5 / (2 * tau)))) /\
    (forall S', 0 <= C -> 0 <= S -> S <= S' -> exists k', Perm_Panda_Lake m (Fin d) (Fin C) (Fin S') (Fin tau) (Fin phi) = Ret (Fin k') /\ k <= k').
Proof.
  intros m d C S tau phi Hd Ht Hp.
  assert (Q : 0 < (1 - phi)^2) by (apply pow_lt; lra). assert (D2 : 0 < d^2) by (apply pow_lt; lra).
  assert (P3 : 0 < phi^3) by (apply pow_lt; lra). assert (C2 : 0 <= C^2) by apply pow2_ge_0.
  assert (E2 : 0 < (C^2 + 1)^2) by (apply pow_lt; lra).
  assert (KP : 0 < kozeny_carman phi d * (5 / (2 * tau))).
  { apply Rmult_lt_0_compat; [|apply Rdiv_lt_0_compat; lra]. apply Rdiv_lt_0_compat; [apply Rmult_lt_0_compat; lra|lra]. }
  assert (V : forall S, Perm_Panda_Lake m (Fin d) (Fin C) (Fin S) (Fin tau) (Fin phi) =
     Ret (Fin (kozeny_carman phi d * (5 / (2 * tau)) * ((C^3 * S + 3 * C^2 + 1) / (C^2 + 1))^2))).
  { intros s. unfold Perm_Panda_Lake. assert (N : 0 < 72 * tau * (1 - phi)^2 * (C^2 + 1)^2) by pos.
    assert (72 * tau * (1 - phi)^2 * (C^2 + 1)^2 <> 0) by lra. ev. reteq. unfold kozeny_carman. field. lra. }
  rewrite V. eexists. split; [reflexivity|]. split; [apply Rmult_le_pos; [lra|apply pow2_ge_0]|]. split; [reflexivity|].
  split; [intros -> ->; rewrite KC_fin by lra; reteq; field; lra|]. split.
  - intros ->. assert (A : 1 <= (C ^ 3 * 0 + 3 * C ^ 2 + 1) / (C ^ 2 + 1)) by (apply le_div_iff; lra).
    assert (B : (C ^ 3 * 0 + 3 * C ^ 2 + 1) / (C ^ 2 + 1) < 3) by (apply div_lt_iff; lra).
    set (x := (C ^ 3 * 0 + 3 * C ^ 2 + 1) / (C ^ 2 + 1)) in *. set (K := kozeny_carman phi d * (5 / (2 * tau))) in *.
    assert (1 <= x^2) by nra. assert (x^2 < 9) by nra. split; nra.
  - intros S' HC HS L. rewrite V. eexists. split; [reflexivity|]. apply Rmult_le_compat_l; [lra|]. apply pow_incr.
    assert (0 <= C^3) by (apply pow_le, HC). assert (0 <= C^3 * S) by (apply Rmult_le_pos; lra).
    assert (C^3 * S <= C^3 * S') by (apply Rmult_le_compat_l; lra).
    split; [apply le_div_iff; lra|]. apply Rmult_le_compat_r; [left; apply Rinv_0_lt_compat; lra|lra].
Qed.
Print Assumptions C48_panda_lake.
Example C48_nonvacuous : 0 < 250 /\ 0 < 5/2 /\ 0 < 0.3 < 1 /\ 0 <= 0.5 /\ 0 <= 1 <= 2. Proof. lra. Qed.

(** ** C49 *)
(** Fredrich's model should be Kozeny-Carman for circular tubes (shape factor 2): a specific surface
    6(1-phi)/d makes it d^2 phi^3/(90 b (1-phi)^2). The code multiplies by the grain size instead: the
    permeability falls with the fourth power too much and coarser grains give lower permeability. *)
Theorem C49_fredrich_refuted :
  forall m phi d b, 0 < phi < 1 -> 0 < d -> 0 < b ->
  exists k, Perm_Fredrich m (Fin phi) (Fin d) (Fin b) = Ret (Fin k) /\
    d^4 * k = 2 / b * kozeny_carman phi d /\
    (k = 2 / b * kozeny_carman phi d <-> d = 1) /\
    (forall d', d < d' -> exists k', Perm_Fredrich m (Fin phi) (Fin d') (Fin b) = Ret (Fin k') /\ k' < k).
Proof.
  intros m phi d b Hp Hd Hb.
  assert (V : forall d, 0 < d -> Perm_Fredrich m (Fin phi) (Fin d) (Fin b) = Ret (Fin (phi^3 / (90 * b * (1 - phi)^2) * (/ d)^2))).
  { intros x Hx. unfold Perm_Fredrich. assert (phi <> 0) by lra. assert (6 * (1 - phi) * x <> 0) by (apply Rgt_not_eq; unfold Rgt; repeat apply Rmult_lt_0_compat; lra).
    assert (b * (25/10 / phi) <> 0) by (apply Rgt_not_eq; unfold Rgt; apply Rmult_lt_0_compat; [lra|apply Rdiv_lt_0_compat; lra]).
    ev. reteq. field. lra. }
  rewrite V by auto.
  assert (Q : 0 < (1 - phi)^2) by (apply pow_lt; lra). assert (P3 : 0 < phi^3) by (apply pow_lt; lra).
  assert (C0 : 0 < phi^3 / (90 * b * (1 - phi)^2)) by (apply Rdiv_lt_0_compat; [lra|pos]).
  eexists. split; [reflexivity|]. split; [unfold kozeny_carman; field; lra|]. split.
  - replace (2 / b * kozeny_carman phi d) with (phi^3 / (90 * b * (1 - phi)^2) * d^2) by (unfold kozeny_carman; field; lra).
    split; [|intros ->; rewrite Rinv_1; reflexivity]. intros E. apply Rmult_eq_reg_l in E; [|lra].
    assert (F : d^4 = 1). { replace (d^4) with (d^2 * d^2) by ring. rewrite <- E at 1. field. lra. }
    assert (G : (d^2 + 1) * (d + 1) * (d - 1) = 0) by (ring_simplify; lra). 
    assert (0 <= d^2) by apply pow2_ge_0.
    apply Rmult_integral in G as [G|G]; [|lra]. apply Rmult_integral in G as [G|G]; lra.
  - intros d' L. rewrite V by lra. eexists. split; [reflexivity|]. apply Rmult_lt_compat_l; [exact C0|].
    assert (0 < / d') by (apply Rinv_0_lt_compat; lra). assert (/ d' < / d) by (apply Rinv_lt_contravar; [apply Rmult_lt_0_compat; lra|lra]). nra.
Qed.
Print Assumptions C49_fredrich_refuted.
Theorem C49_revil :
  forall m phi phi' d d', 0 < phi -> phi <= phi' -> 0 < d -> d <= d' ->
  exists k k', Perm_Revil m (Fin phi) (Fin d) = Ret (Fin k) /\ Perm_Revil m (Fin phi') (Fin d') = Ret (Fin k') /\ 0 < k <= k' /\
    k = 125/3 * d^2 * (sqrt phi)^9 /\
    (forall l, 0 < l -> Perm_Revil m (Fin (l^2 * phi)) (Fin d) = Ret (Fin (l^9 * k))).
Proof.
  intros m phi phi' d d' Hp Lp Hd Ld.
  assert (V : forall x y, 0 < x -> Perm_Revil m (Fin x) (Fin y) = Ret (Fin (1000 / 24 * (y^2 * Rpower x (9/2))))).
  { intros x y Hx. unfold Perm_Revil. rewrite fpow_fin by auto. ev. reteq. field. }
  rewrite !V by lra. do 2 eexists. do 2 (split; [reflexivity|]).
  assert (0 < Rpower phi (9/2)) by apply exp_pos. assert (0 < d^2) by (apply pow_lt; lra).
  split; [split|split].
  - apply Rmult_lt_0_compat; [lra|apply Rmult_lt_0_compat; lra].
  - apply Rmult_le_compat_l; [lra|]. apply Rmult_le_compat; [lra|lra|apply pow_incr; lra|]. apply Rle_Rpower_l; lra.
  - rewrite <- Rpower_sqrt by lra. rewrite <- (Rpower_pow 9) by apply exp_pos. rewrite Rpower_mult.
    replace (/ 2 * INR 9) with (9/2) by (simpl; field). field.
  - intros l Hl. rewrite V by (apply Rmult_lt_0_compat; [apply pow_lt|]; lra). reteq.
    rewrite <- Rpower_mult_distr by (try apply pow_lt; lra).
    rewrite <- (Rpower_pow 2 l) by lra. rewrite Rpower_mult. replace (INR 2 * (9/2)) with (INR 9) by (simpl; field).
    rewrite Rpower_pow by lra. ring.
Qed.
Print Assumptions C49_revil.
(** Bernabe: a volume-weighted mean of the crack and tube permeabilities, increasing in both apertures. *)
Theorem C49_bernabe :
  forall m phi crf w r, 0 <= phi -> 0 <= crf <= 1 -> 0 <= w -> 0 <= r ->
  exists k, Perm_Bernabe m (Fin phi) (Fin crf) (Fin w) (Fin r) = Ret (Fin k) /\
    k = crf * (phi * w^2 / 30) + (1 - crf) * (phi * r^2 / 20) /\
    Rmin (phi * w^2 / 30) (phi * r^2 / 20) <= k <= Rmax (phi * w^2 / 30) (phi * r^2 / 20) /\
    (crf = 1 -> k = phi * w^2 / 30) /\ (crf = 0 -> k = phi * r^2 / 20) /\
    (forall w' r', w <= w' -> r <= r' -> exists k', Perm_Bernabe m (Fin phi) (Fin crf) (Fin w') (Fin r') = Ret (Fin k') /\ k <= k').
Proof.
  intros m phi crf w r Hp Hc Hw Hr.
  assert (V : forall w r, Perm_Bernabe m (Fin phi) (Fin crf) (Fin w) (Fin r) = Ret (Fin (crf * (phi * w^2 / 30) + (1 - crf) * (phi * r^2 / 20)))).
  { intros x y. unfold Perm_Bernabe. ev. reteq. field. }
  rewrite V. eexists. split; [reflexivity|].
  set (A := phi * w^2 / 30). set (B := phi * r^2 / 20).
  split; [reflexivity|]. split; [|split; [intros ->; ring|split; [intros ->; ring|]]].
  - assert (Rmin A B <= A /\ Rmin A B <= B) by (split; [apply Rmin_l|apply Rmin_r]).
    assert (A <= Rmax A B /\ B <= Rmax A B) by (split; [apply Rmax_l|apply Rmax_r]). nra.
  - intros w' r' L1 L2. rewrite V. eexists. split; [reflexivity|].
    assert (w^2 <= w'^2) by (apply pow_incr; lra). assert (r^2 <= r'^2) by (apply pow_incr; lra).
    assert (A <= phi * w'^2 / 30) by (unfold A; nra). assert (B <= phi * r'^2 / 20) by (unfold B; nra). nra.
Qed.
Print Assumptions C49_bernabe.
Example C49_nonvacuous : 0 < 0.2 < 1 /\ 0 < 0.25 /\ 0 < 2 /\ 0 <= 0.1 <= 1. Proof. lra. Qed.

(** ** C66: log-based estimates *)
Lemma div_mono a b c d : 0 <= a -> a <= b -> 0 < d -> d <= c -> a / c <= b / d.
Proof.
  intros Ha L Hd L'. apply Rmult_le_compat; try lra; [left; apply Rinv_0_lt_compat; lra|apply Rinv_le_contravar; lra].
Qed.
Theorem C66_perm_logs :
  forall m phi phi' Sw Sw', 0 < phi -> phi <= phi' -> 0 < Sw' -> Sw' <= Sw -> Sw <= 1 ->
  exists t u c d t' u' c' d',
    Perm_Perm_logs m (Fin phi) (Fin Sw) = Ret (Fin t, Fin u, Fin c, Fin d) /\
    Perm_Perm_logs m (Fin phi') (Fin Sw') = Ret (Fin t', Fin u', Fin c', Fin d') /\
    0 < t <= t' /\ 0 < u <= u' /\ 0 <= c <= c' /\ 0 < d <= d' /\ (c = 0 <-> Sw = 1) /\ u^2 * Sw^2 = 1600 * (t * phi^3) /\
    sqrt t = 250 * phi^3 / Sw /\ sqrt c = 100 * phi^2 * (1 - Sw) / Sw /\ d = 352 * (phi / Sw)^4.
Proof.
  intros m phi phi' Sw Sw' Hp Lp Hs Ls Hs1.
  assert (V : forall x s, 0 < x -> 0 < s -> Perm_Perm_logs m (Fin x) (Fin s) =
    Ret (Fin (62500 * x^6 / s^2), Fin (10000 * Rpower x (9/2) / s^2), Fin (10000 * (x^4 * (1 - s)^2) / s^2), Fin (352 * x^4 / s^4))).
  { intros x s Hx Hs0. unfold Perm_Perm_logs. rewrite fpow_fin by auto.
    assert (s^2 <> 0) by (apply pow_nonzero; lra). assert (s^4 <> 0) by (apply pow_nonzero; lra). ev. reteq; field; lra. }
  rewrite !V by lra. do 8 eexists. do 2 (split; [reflexivity|]).
  assert (S2 : 0 < Sw'^2 <= Sw^2) by (split; [apply pow_lt|apply pow_incr]; lra).
  assert (S4 : 0 < Sw'^4 <= Sw^4) by (split; [apply pow_lt|apply pow_incr]; lra).
  assert (P6 : 0 < phi^6 <= phi'^6) by (split; [apply pow_lt|apply pow_incr]; lra).
  assert (P4 : 0 < phi^4 <= phi'^4) by (split; [apply pow_lt|apply pow_incr]; lra).
  assert (PR : 0 < Rpower phi (9/2) <= Rpower phi' (9/2)) by (split; [apply exp_pos|apply Rle_Rpower_l; lra]).
  split; [split; [apply Rdiv_lt_0_compat; lra|apply div_mono; lra]|].
  split; [split; [apply Rdiv_lt_0_compat; lra|apply div_mono; lra]|].
  assert (Q : 0 <= (1 - Sw)^2 <= (1 - Sw')^2) by (split; [apply pow2_ge_0|apply pow_incr; lra]).
  assert (QQ : 0 <= phi^4 * (1 - Sw)^2 <= phi'^4 * (1 - Sw')^2) by (split; [apply Rmult_le_pos; lra|apply Rmult_le_compat; lra]).
  split; [split; [apply Rmult_le_pos; [lra|left; apply Rinv_0_lt_compat; lra]|apply div_mono; lra]|].
  split; [split; [apply Rdiv_lt_0_compat; lra|apply div_mono; lra]|].
  split.
  - split.
    + intros E. destruct (Req_dec Sw 1) as [->|N]; [reflexivity|exfalso].
      assert (0 < (1 - Sw)^2) by (apply pow_lt; lra). assert (0 < phi^4 * (1 - Sw)^2) by (apply Rmult_lt_0_compat; lra).
      assert (0 < 10000 * (phi ^ 4 * (1 - Sw) ^ 2) / Sw ^ 2) by (apply Rdiv_lt_0_compat; lra). lra.
    + intros ->. field.
  - assert (PP : 0 < phi^2 /\ 0 < phi^3) by (split; apply pow_lt; lra).
    split; [|split; [|split; [|field; lra]]].
    2: { replace (62500 * phi^6 / Sw^2) with ((250 * phi^3 / Sw)^2) by (field; lra). apply sqrt_pow2. apply Rmult_le_pos; [lra|left; apply Rinv_0_lt_compat; lra]. }
    2: { replace (10000 * (phi^4 * (1 - Sw)^2) / Sw^2) with ((100 * phi^2 * (1 - Sw) / Sw)^2) by (field; lra). apply sqrt_pow2.
         apply Rmult_le_pos; [|left; apply Rinv_0_lt_compat; lra]. apply Rmult_le_pos; lra. }
    assert (R9 : Rpower phi (9/2) ^ 2 = phi^9).
    { rewrite <- (Rpower_pow 2) by apply exp_pos. rewrite Rpower_mult. replace (9/2 * INR 2) with (INR 9) by (simpl; field). apply Rpower_pow, Hp. }
    replace ((10000 * Rpower phi (9 / 2) / Sw ^ 2) ^ 2 * Sw ^ 2) with (10000^2 * (Rpower phi (9/2))^2 / Sw^2) by (field; lra).
    rewrite R9. field. lra.
Qed.
Print Assumptions C66_perm_logs.
(** Owolabi's oil and gas correlations: proportional up to a rounded coefficient; positive and monotone for
    moderate water saturation ... *)
Theorem C66_owolabi :
  forall phi Sw, 0 <= phi -> 0 <= Sw -> 34540 * Sw^2 <= 26550 ->
  exists o g, Perm_Owolabi (Fin phi) (Fin Sw) = Ret (Fin o, Fin g) /\ o = 10 * g + 2 * phi^2 /\
    g = 30.7 + phi^2 * (2655 - 3454 * Sw^2) /\ 307 <= o /\ 307/10 <= g /\
    (forall phi', phi <= phi' -> exists o' g', Perm_Owolabi (Fin phi') (Fin Sw) = Ret (Fin o', Fin g') /\ o <= o' /\ g <= g') /\
    (forall Sw', 0 <= Sw' <= Sw -> exists o' g', Perm_Owolabi (Fin phi) (Fin Sw') = Ret (Fin o', Fin g') /\ o <= o' /\ g <= g').
Proof.
  intros phi Sw Hp Hs L.
  assert (V : forall x s, Perm_Owolabi (Fin x) (Fin s) =
    Ret (Fin (307 + x^2 * (26552 - 34540 * s^2)), Fin (307/10 + x^2 * (2655 - 3454 * s^2)))).
  { intros x s. unfold Perm_Owolabi. ev. reteq; field. }
  rewrite V. do 2 eexists. split; [reflexivity|]. assert (P2 : 0 <= phi^2) by apply pow2_ge_0.
  split; [field|]. split; [lra|]. split; [nra|]. split; [nra|]. split.
  - intros phi' L'. rewrite V. do 2 eexists. split; [reflexivity|]. assert (phi^2 <= phi'^2) by (apply pow_incr; lra). split; nra.
  - intros s' L'. rewrite V. do 2 eexists. split; [reflexivity|]. assert (s'^2 <= Sw^2) by (apply pow_incr; lra). split; nra.
Qed.
Print Assumptions C66_owolabi.
(** ... but a water-saturated porous sand gets a negative permeability. *)
Theorem C66_owolabi_positive_refuted :
  forall phi, 0.2 <= phi -> exists o g, Perm_Owolabi (Fin phi) (Fin 1) = Ret (Fin o, Fin g) /\ o < 0 /\ g < 0.
Proof. intros phi H. unfold Perm_Owolabi. ev. do 2 eexists. split; [reflexivity|]. split; nra. Qed.
Print Assumptions C66_owolabi_positive_refuted.
Example C66_nonvacuous : 0 < 0.2 <= 0.3 /\ 0 < 0.2 <= 0.5 /\ 34540 * 0.5^2 <= 26550. Proof. lra. Qed.

(** ** C67: Bloch *)
Theorem C67_bloch_monotone :
  forall m S S' C C' D D', 0 < S' -> S' <= S -> C <= C' -> D <= D' ->
  exists p k p' k', Perm_Bloch m (Fin S) (Fin C) (Fin D) = Ret (Fin p, Fin k) /\
    Perm_Bloch m (Fin S') (Fin C') (Fin D') = Ret (Fin p', Fin k') /\ p <= p' /\ 0 < k <= k' /\
    p' - p = 9.8 * (/ S' - / S) + 0.17 * (C' - C) /\
    k' = k * Rpower 10 (1.34 * (D' - D) + 4.08 * (/ S' - / S) + 0.0342 * (C' - C)) /\
    (S = 1 -> C = 100 -> D = 0 -> p = 20.7 /\ k = Rpower 10 2.83) /\
    (S = S' -> C = C' -> D' = D + 1/134*100 -> p' = p /\ k' = 10 * k).
Proof.
  intros m S S' C C' D D' HS LS LC LD.
  assert (V : forall S C D, 0 < S -> Perm_Bloch m (Fin S) (Fin C) (Fin D) =
    Ret (Fin (- (61/10) + 98/10 / S + 17/100 * C), Fin (Rpower 10 (- (467/100) + 134/100 * D + 408/100 / S + 342/100 * (C / 100))))).
  { intros s c d Hs. unfold Perm_Bloch. assert (s <> 0) by lra. ev. rewrite fpow_fin by lra. ev. reflexivity. }
  rewrite !V by lra. do 4 eexists. do 2 (split; [reflexivity|]).
  assert (I : / S <= / S') by (apply Rinv_le_contravar; lra).
  split; [unfold Rdiv; lra|]. split; [split; [apply exp_pos|apply Rle_Rpower; unfold Rdiv; lra]|].
  split; [unfold Rdiv; lra|]. split; [rewrite <- Rpower_plus; f_equal; unfold Rdiv; lra|].
  split; [intros -> -> ->; split; [lra|f_equal; lra]|].
  intros -> -> ->. split; [reflexivity|].
  replace (- (467/100) + 134/100 * (D + 1/134*100) + 408/100 / S' + 342/100 * (C' / 100))
    with (1 + (- (467/100) + 134/100 * D + 408/100 / S' + 342/100 * (C' / 100))) by (field; lra).
  rewrite Rpower_plus, Rpower_1 by lra. reflexivity.
Qed.
Print Assumptions C67_bloch_monotone.
(** With the documented units (rigid grain content as a fraction, porosity as a fraction) a well-sorted sand
    has a porosity above 1: both quantities are percentages. *)
Theorem C67_bloch_units_refuted :
  forall m S C D, 1 <= S <= 135/100 -> 0 <= C <= 1 ->
  exists p k, Perm_Bloch m (Fin S) (Fin C) (Fin D) = Ret (Fin p, Fin k) /\ 1 < p.
Proof.
  intros m S C D HS HC. unfold Perm_Bloch. assert (S <> 0) by lra. ev. rewrite fpow_fin by lra. ev.
  do 2 eexists. split; [reflexivity|]. assert (71/10 < 98/10 / S) by (apply lt_div_iff; lra). lra.
Qed.
Print Assumptions C67_bloch_units_refuted.
Example C67_nonvacuous : 1 <= 1.2 <= 135/100 /\ 0 <= 0.9 <= 1 /\ 0 < 1.2 <= 1.4. Proof. lra. Qed.
