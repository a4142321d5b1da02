(** * Lemmas about BW.py. *)
From Coq Require Import Lra.
From Coquelicot Require Import Coquelicot.
From Verif Require Import Fl M_Fluid M_BW Spec Spec5 RealLemmas.
Open Scope R_scope.

Definition zk (t : R) := 0.45 + 8 * (0.56 - 1 / t)^2.
Definition za (t : R) := 0.03 + 0.00527 * (3.5 - t)^3.
Definition zb (t : R) := 0.642 * t - 0.007 * t^4 - 0.52.
Definition zE (p t : R) := 0.109 * (3.85 - t)^2 * exp (- zk t * Rpower p 1.2 / t).
Definition dz (p t : R) := za t + 0.109 * (3.85 - t)^2 * 1.2 * Rpower p 0.2 * (- zk t) / t * exp (- zk t * Rpower p 1.2 / t).
Lemma z_split p t : z_factor p t = za t * p + zb t + zE p t.
Proof. reflexivity. Qed.
Lemma zk_pos t : 0 < zk t.
Proof. unfold zk. assert (0 <= (0.56 - 1 / t)^2) by apply pow2_ge_0. lra. Qed.
Lemma za_pos t : t <= 4 -> 0 < za t.
Proof.
  intros. unfold za. set (u := t - 3.5). replace ((3.5 - t)^3) with (- u^3) by (unfold u; ring).
  assert (0 <= (1/2 - u) * (1/4 + u/2 + u^2)). { apply Rmult_le_pos; [unfold u; lra|]. assert (0 <= (u + 1/4)^2) by apply pow2_ge_0. nra. }
  assert (u^3 <= 0.125) by nra. lra.
Qed.
Lemma zb_pos t : 0.85 <= t <= 4 -> 0 < zb t.
Proof.
  intros H. unfold zb. assert (A : t^2 <= 4.85 * t - 3.4) by nra.
  assert (B : t^4 <= 23.5225 * t^2 - 32.98 * t + 11.56). { replace (t^4) with ((t^2)^2) by ring. assert (0 <= t^2) by apply pow2_ge_0. nra. }
  lra.
Qed.
Lemma zE_nonneg p t : 0 <= zE p t.
Proof. unfold zE. apply Rmult_le_pos; [|left; apply exp_pos]. assert (0 <= (3.85 - t)^2) by apply pow2_ge_0. lra. Qed.
Lemma z_pos p t : 0.85 <= t <= 4 -> 0 <= p -> 0 < z_factor p t.
Proof.
  intros H Hp. rewrite z_split. assert (0 < za t) by (apply za_pos; lra). assert (0 < zb t) by (apply zb_pos; auto). assert (X := zE_nonneg p t). nra.
Qed.
Lemma z_derive p t : 0 < p -> t <> 0 -> is_derive (fun p => z_factor p t) p (dz p t).
Proof.
  intros Hp Ht. unfold z_factor, dz, Rpower. fold (zk t) (za t). auto_derive; [auto|].
  replace (0.2 * ln p) with (1.2 * ln p + - ln p) by lra. rewrite exp_plus, exp_Ropp, exp_ln by auto. unfold Rdiv. set (X := exp (- zk t * _ * _)). set (L := exp (1.2 * ln p)). field. split; lra.
Qed.
(** [Z - p Z'] is positive. *)
Lemma zpz p t : 0.85 <= t <= 4 -> 0 < p -> 0 < z_factor p t - p * dz p t.
Proof.
  intros H Hp. rewrite z_split. unfold dz.
  replace (za t * p + zb t + zE p t - p * (za t + 0.109 * (3.85 - t) ^ 2 * 1.2 * Rpower p 0.2 * - zk t / t * exp (- zk t * Rpower p 1.2 / t)))
   with (zb t + zE p t + zE p t * (p * 1.2 * Rpower p 0.2 * zk t / t)) by (unfold zE; field; lra).
  assert (0 < zb t) by (apply zb_pos; auto). assert (X := zE_nonneg p t).
  assert (0 < p * 1.2 * Rpower p 0.2 * zk t / t).
  { apply Rdiv_lt_0_compat; [|lra]. assert (K := zk_pos t). assert (0 < Rpower p 0.2) by apply exp_pos. apply Rmult_lt_0_compat; [apply Rmult_lt_0_compat; lra|lra]. }
  nra.
Qed.
Lemma exp_neg_le x : 0 <= x -> exp (- x) <= / (1 + x + x^2 / 2).
Proof.
  intros H. rewrite exp_Ropp. apply Rinv_le_contravar; [nra|]. assert (E := exp_ge_taylor x 2 H). cbn in E. lra.
Qed.
Lemma gamma0_pos p : 0 <= p -> 0 < gamma0 p.
Proof.
  intros H. unfold gamma0. assert (E := exp_neg_le (0.65 * (p + 1)) ltac:(lra)).
  replace (- (0.65 * (p + 1))) with (- 0.65 * (p + 1)) in E by lra.
  set (x := 0.65 * (p + 1)) in *. assert (Dx : 0 < 1 + x + x^2/2) by (unfold x; nra).
  enough (0 < 0.85 + 5.6 / (p + 2) + 27.1 / (p + 3.5)^2 - 8.7 / (1 + x + x^2 / 2)) by (unfold Rdiv in *; lra).
  replace (0.85 + 5.6 / (p + 2) + 27.1 / (p + 3.5)^2 - 8.7 / (1 + x + x^2 / 2)) with
    (((0.85 * (p + 2) * (p + 3.5)^2 + 5.6 * (p + 3.5)^2 + 27.1 * (p + 2)) * (1 + x + x^2 / 2) - 8.7 * (p + 2) * (p + 3.5)^2) /
     ((p + 2) * (p + 3.5)^2 * (1 + x + x^2 / 2))) by (field; repeat split; lra).
  apply Rdiv_lt_0_compat; [|repeat apply Rmult_lt_0_compat; lra].
  unfold x. assert (0 <= p^2) by apply pow2_ge_0. assert (0 <= p^3) by (apply pow_le; auto). assert (0 <= p^4) by (apply pow_le; auto). assert (0 <= p^5) by (apply pow_le; auto).
  ring_simplify. lra.
Qed.

Section Tail.
Variables (m : mode) (P Ta p t G : R).
Hypotheses (Ht : 0.85 <= t <= 4) (Hp : 0 < p) (HTa : 0 < Ta).
Lemma dz_fin : BW_dz_dp m (Fin p) (Fin t) = Ret (Fin (dz p t)).
Proof.
  unfold BW_dz_dp, BW_gas_k. assert (t <> 0) by lra.
  repeat (first [fl1 | rewrite fdiv_fin by assumption | rewrite fpow_fin by assumption]; cbv beta zeta).
  reteq.
Qed.
Lemma tail_fin : BW_gas_tail m (Fin P) (Fin Ta) (Fin p) (Fin t) (Fin G) =
  Ret (Fin (gas_density G P Ta (z_factor p t)), Fin (P / (1 - p * dz p t / z_factor p t) * gamma0 p / 1000)).
Proof.
  unfold BW_gas_tail, BW_gas_k. assert (t <> 0) by lra.
  assert (Zp : 0 < z_factor p t) by (apply z_pos; lra).
  assert (W : 0 < 1 - p * dz p t / z_factor p t).
  { assert (X := zpz p t Ht Hp). replace (1 - p * dz p t / z_factor p t) with ((z_factor p t - p * dz p t) / z_factor p t) by (field; lra). apply Rdiv_lt_0_compat; lra. }
  assert (p + 2 <> 0) by lra. assert ((p + 35/10)^2 <> 0) by (apply pow_nonzero; lra).
  assert (ZT : 0 < z_factor p t * (83145/10000) * Ta) by (apply Rmult_lt_0_compat; lra).
  repeat (first [fl1 | rewrite fdiv_fin by (assumption || lra) | rewrite fpow_fin by assumption]; cbv beta zeta).
  match goal with |- context [fdiv NumPy (Fin (_ * P)) (Fin ?y)] => change y with (z_factor p t * (83145/10000) * Ta) end.
  rewrite fdiv_fin by lra. rewrite dz_fin.
  repeat (first [fl1 | rewrite fdiv_fin by (assumption || lra) | rewrite fpow_fin by assumption]; cbv beta zeta).
  match goal with |- context [fdiv NumPy (Fin (p * dz p t)) (Fin ?y)] => change y with (z_factor p t) end.
  rewrite fdiv_fin by lra. fl1. rewrite fdiv_fin by lra.
  repeat (first [fl1 | rewrite fdiv_fin by (assumption || lra) | rewrite fpow_fin by assumption]; cbv beta zeta).
  replace (- (65/100) * (p + 1)) with (- 0.65 * (p + 1)) by lra. reteq.
Qed.
End Tail.

(** Density as a function of pressure: derivative, and the modulus in terms of it. *)
Section GasLaw.
Variables (Ta t G pc : R).
Hypotheses (Ht : 0.85 <= t <= 4) (HTa : 0 < Ta) (HG : 0 < G) (Hpc : 0 < pc).
Definition grho (P : R) := gas_density G P Ta (z_factor (P / pc) t).
Definition gK (P : R) := P / (1 - P / pc * dz (P / pc) t / z_factor (P / pc) t) * gamma0 (P / pc) / 1000.
Definition gdrho (P : R) := 28.8 * G / (8.3145 * Ta) * (z_factor (P / pc) t - P / pc * dz (P / pc) t) / z_factor (P / pc) t ^ 2.
Lemma grho_derive P : 0 < P -> is_derive grho P (gdrho P).
Proof.
  intros HP. assert (Hq : 0 < P / pc) by (apply Rdiv_lt_0_compat; auto). assert (Zp : 0 < z_factor (P / pc) t) by (apply z_pos; lra).
  assert (D := z_derive (P / pc) t Hq ltac:(lra)).
  assert (D2 : is_derive (fun P => z_factor (P / pc) t) P (/ pc * dz (P / pc) t)).
  { apply (is_derive_comp (fun p => z_factor p t) (fun P => P / pc)); [exact D|]. auto_derive; [lra|]. field. lra. }
  unfold grho, gas_density.
  replace (gdrho P) with (((28.8 * G) * (z_factor (P / pc) t * 8.3145 * Ta) - (28.8 * G * P) * (/ pc * dz (P / pc) t * 8.3145 * Ta)) / (z_factor (P / pc) t * 8.3145 * Ta)^2)
    by (unfold gdrho; field; repeat split; lra).
  apply (is_derive_div (fun P => 28.8 * G * P) (fun P => z_factor (P / pc) t * 8.3145 * Ta)).
  - auto_derive; [auto|]. ring.
  - apply (is_derive_ext (fun P => scal (8.3145 * Ta) (z_factor (P / pc) t))).
    { intros x. unfold scal; cbn; unfold mult; cbn. ring. }
    replace (/ pc * dz (P / pc) t * 8.3145 * Ta) with (scal (8.3145 * Ta) (/ pc * dz (P / pc) t)) by (unfold scal; cbn; unfold mult; cbn; ring).
    apply (is_derive_scal (fun P => z_factor (P / pc) t)). exact D2.
  - assert (0 < z_factor (P / pc) t * 8.3145 * Ta) by (apply Rmult_lt_0_compat; lra). lra.
Qed.
Lemma gdrho_pos P : 0 < P -> 0 < gdrho P.
Proof.
  intros HP. assert (Hq : 0 < P / pc) by (apply Rdiv_lt_0_compat; auto). assert (Zp : 0 < z_factor (P / pc) t) by (apply z_pos; lra).
  assert (X := zpz (P / pc) t Ht Hq). unfold gdrho. apply Rdiv_lt_0_compat; [|apply pow_lt; auto].
  apply Rmult_lt_0_compat; [|auto]. apply Rdiv_lt_0_compat; lra.
Qed.
Lemma gK_eq P : 0 < P -> gK P = gamma0 (P / pc) * (grho P / gdrho P) / 1000.
Proof.
  intros HP. assert (Hq : 0 < P / pc) by (apply Rdiv_lt_0_compat; auto). assert (Zp : 0 < z_factor (P / pc) t) by (apply z_pos; lra).
  assert (X := zpz (P / pc) t Ht Hq). unfold gK, grho, gas_density, gdrho.
  set (Z := z_factor (P / pc) t) in *. set (q := P / pc * dz (P / pc) t) in *. set (g := gamma0 (P / pc)). field. repeat split; lra.
Qed.
Lemma grho_pos P : 0 < P -> 0 < grho P.
Proof.
  intros HP. assert (Hq : 0 < P / pc) by (apply Rdiv_lt_0_compat; auto). assert (Zp : 0 < z_factor (P / pc) t) by (apply z_pos; lra).
  unfold grho, gas_density. apply Rdiv_lt_0_compat; [apply Rmult_lt_0_compat; lra|]. apply Rmult_lt_0_compat; lra.
Qed.
Lemma gK_pos P : 0 < P -> 0 < gK P.
Proof.
  intros HP. rewrite gK_eq by auto. assert (Hq : 0 < P / pc) by (apply Rdiv_lt_0_compat; auto). assert (0 < gamma0 (P / pc)) by (apply gamma0_pos; lra).
  assert (0 < grho P / gdrho P) by (apply Rdiv_lt_0_compat; [apply grho_pos|apply gdrho_pos]; auto). apply Rdiv_lt_0_compat; [apply Rmult_lt_0_compat; auto|lra].
Qed.
Lemma grho_incr P P' : 0 < P -> P < P' -> grho P < grho P'.
Proof.
  intros HP L. destruct (MVT_cor2 grho gdrho P P' L) as (c & E & Hc).
  - intros c Hc. apply is_derive_Reals, grho_derive. lra.
  - assert (0 < gdrho c) by (apply gdrho_pos; lra). nra.
Qed.
End GasLaw.
