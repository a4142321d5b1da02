(** * Property theorems about AVO.py: exact reflection coefficients (C51, C52). *)
From Verif Require Import Fl M_Utils M_EM M_Anis M_AVO Spec Spec5 Spec8 RealLemmas L_AVO1 L_AVO2 L_AVO4.
Open Scope R_scope.

(** ** C51: Zoeppritz *)
(** Before the critical angles, Aki and Richards' formulas are the only solution of the boundary conditions; energy is
    conserved. *)
Theorem C51_boundary_conditions_solved_by_aki_richards :
  forall vp1 vs1 r1 vp2 vs2 r2 p q1 q2 s1 s2,
  0 < vp1 -> 0 < vs1 -> 0 < r1 -> 0 < vp2 -> 0 < vs2 -> 0 < r2 ->
  slowness vp1 p q1 -> slowness vp2 p q2 -> slowness vs1 p s1 -> slowness vs2 p s2 -> 0 < q1 -> 0 < q2 -> 0 < s1 -> 0 < s2 ->
  (forall Rpp Rps, (exists Tpp Tps, welded vp1 vs1 r1 vp2 vs2 r2 p q1 q2 s1 s2 Rpp Rps Tpp Tps) <->
     Rpp = ar_pp vs1 r1 vs2 r2 p q1 q2 s1 s2 s1 /\ Rps = ar_ps vp1 vs1 r1 vs2 r2 p q1 q2 s1 s2 s1) /\
  (forall Rpp Rps Tpp Tps, welded vp1 vs1 r1 vp2 vs2 r2 p q1 q2 s1 s2 Rpp Rps Tpp Tps ->
     r1 * q1 * vp1^2 = r1 * q1 * (vp1 * Rpp)^2 + r1 * s1 * (vs1 * Rps)^2 + r2 * q2 * (vp2 * Tpp)^2 + r2 * s2 * (vs2 * Tps)^2).
Proof.
  intros vp1 vs1 r1 vp2 vs2 r2 p q1 q2 s1 s2 V1 W1 R1 V2 W2 R2 Q1 Q2 S1 S2 P1 P2 P3 P4. split.
  - intros Rpp Rps. split.
    + intros (Tpp & Tps & H). apply welded_iff in H; auto. tauto.
    + intros (A & B). set (X := 2 * r1 * q1 * vp1 * ar_F vs1 r1 vs2 r2 p s1 s2 / ar_D vs1 r1 vs2 r2 p q1 q2 s1 s2 s1).
      set (Y := 2 * r1 * q1 * vp1 * (p * ar_H vs1 r1 vs2 r2 p q2 s1) / ar_D vs1 r1 vs2 r2 p q1 q2 s1 s2 s1).
      exists (X / vp2), (Y / vs2). apply welded_iff; auto. repeat split; auto; fold X Y; field; lra.
  - intros Rpp Rps Tpp Tps H. apply welded_red in H; auto. apply red_energy in H. lra.
Qed.
Print Assumptions C51_boundary_conditions_solved_by_aki_richards.
(** What the function returns at every angle: these formulas, but with p from the sine of the angle in degrees, and with the
    lower layer's S slowness where the coefficient H has the upper layer's. *)
Theorem C51_returned_formula :
  forall vp1 vs1 r1 vp2 vs2 r2 th, 0 < vp1 -> 0 < vs1 -> 0 < vp2 -> 0 < vs2 ->
  let p := sin th / vp1 in let q1 := cos (radians th) / vp1 in
  let q2 := sqrt (1 - (p * vp2)^2) / vp2 in let s1 := sqrt (1 - (p * vs1)^2) / vs1 in let s2 := sqrt (1 - (p * vs2)^2) / vs2 in
  -1 <= p * vp2 <= 1 -> -1 <= p * vs1 <= 1 -> -1 <= p * vs2 <= 1 -> ar_D vs1 r1 vs2 r2 p q1 q2 s1 s2 s2 <> 0 ->
  AVO_zoeppritz (Fin vp1) (Fin vs1) (Fin r1) (Fin vp2) (Fin vs2) (Fin r2) (Fin th) =
  Ret (Fin (ar_pp vs1 r1 vs2 r2 p q1 q2 s1 s2 s2), Fin (ar_ps vp1 vs1 r1 vs2 r2 p q1 q2 s1 s2 s2)).
Proof. exact zoeppritz_eval. Qed.
Print Assumptions C51_returned_formula.
(** Even at an angle where the unit mistake has no effect the boundary conditions are not met. *)
Theorem C51_boundary_conditions_refuted :
  exists th x, radians th = x /\ 0 < x < 1 /\ sin th = sin x /\ exists Rpp Rps,
  AVO_zoeppritz (Fin 10) (Fin 1) (Fin 1) (Fin 10) (Fin 2) (Fin 1) (Fin th) = Ret (Fin Rpp, Fin Rps) /\
  let p := sin x / 10 in exists q1 q2 s1 s2, q1 = cos x / 10 /\ 0 < q1 /\ 0 < q2 /\ 0 < s1 /\ 0 < s2 /\
  slowness 10 p q1 /\ slowness 10 p q2 /\ slowness 1 p s1 /\ slowness 2 p s2 /\
  forall Tpp Tps, ~ welded 10 1 1 10 2 1 p q1 q2 s1 s2 Rpp Rps Tpp Tps.
Proof.
  exists th0, (radians th0). destruct th0_facts as (A & _ & _ & _ & C). split; [reflexivity|]. split; [exact C|]. split; [exact A|].
  destruct zoeppritz_ex as (Rpp & Rps & E & N). exists Rpp, Rps. split; [exact E|]. cbv zeta.
  destruct ex_facts as (F1 & F2 & F3 & F4 & F5 & F6 & F7). eexists _, _, _, _. split; [reflexivity|].
  split; [|split; [|split; [|split; [|split; [exact F5|split; [exact F5|split; [exact F6|split; [exact F7|exact N]]]]]]]]; lra.
Qed.
Print Assumptions C51_boundary_conditions_refuted.

(** ** C52: Aki_Richards is the first order of the exact coefficients *)
Theorem C52_first_order_of_exact :
  forall i vp vs r dvp dvs dr, - (PI/2) < i < PI/2 -> 0 < vs -> vs < vp -> 0 < r ->
  let p := sin i / vp in let q1 := cos i / vp in let s1 := sqrt (1 / vs^2 - p^2) in
  let q2 e := sqrt (1 / (vp + e * dvp)^2 - p^2) in let s2 e := sqrt (1 / (vs + e * dvs)^2 - p^2) in
  (exists l, derivable_pt_lim (fun e => ar_pp vs r (vs + e * dvs) (r + e * dr) p q1 (q2 e) s1 (s2 e) s1) 0 l /\
             derivable_pt_lim (fun e => aki_pp i vp (vp + e * dvp) vs (vs + e * dvs) r (r + e * dr)) 0 l) /\
  (exists l, derivable_pt_lim (fun e => ar_ps vp vs r (vs + e * dvs) (r + e * dr) p q1 (q2 e) s1 (s2 e) s1) 0 l /\
             derivable_pt_lim (fun e => aki_ps i vp (vp + e * dvp) vs (vs + e * dvs) r (r + e * dr)) 0 l).
Proof.
  intros i vp vs r dvp dvs dr Hi Hs Hv Hr p q1 s1 q2 s2. split; eexists; split.
  - apply Coquelicot.Derive.is_derive_Reals. apply (weak_pp i vp vs r dvp dvs dr Hi Hs Hv Hr).
  - apply Coquelicot.Derive.is_derive_Reals. apply (weak_aki_pp i vp vs r dvp dvs dr Hi Hs Hv Hr).
  - apply Coquelicot.Derive.is_derive_Reals. apply (weak_ps i vp vs r dvp dvs dr Hi Hs Hv Hr).
  - apply Coquelicot.Derive.is_derive_Reals. apply (weak_aki_ps i vp vs r dvp dvs dr Hi Hs Hv Hr).
Qed.
Print Assumptions C52_first_order_of_exact.
Example C51_nonvacuous : slowness 2 (1/10) (sqrt (6/25)) /\ slowness 1 (1/10) (sqrt (99/100)) /\ 0 < sqrt (6/25) /\ 0 < sqrt (99/100).
Proof.
  unfold slowness. rewrite <- !Rsqr_pow2. rewrite !Rsqr_sqrt by lra. unfold Rsqr.
  split; [lra|]. split; [lra|]. split; apply sqrt_lt_R0; lra.
Qed.
