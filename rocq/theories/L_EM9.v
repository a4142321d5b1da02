(** * EM: the iterated scheme [SC_flex] for empty pores. *)
From Verif Require Import Fl M_Utils M_EM RealLemmas L_Lists L_EM1 L_EM5 L_EM6.
Open Scope R_scope.

(** One pass depends on the state only through the ratio K/G. *)
Lemma flex_dry m f K0 G0 K G : 0 < K0 -> 0 < G0 -> 0 < K -> 0 < G ->
  EM_SC_flex_step m (Fin f) (Fin K0) (Fin 0) (Fin G0) (Fin 0) (Fin K) (Fin G) =
  Ret (Fin (K0 * (1 - f * (1 + 3/4 * (K / G)))), Fin (G0 * (1 - f * (1 + 6 * (K + 2 * G) / (9 * K + 8 * G))))).
Proof.
  intros. rewrite (flex_step m K G 0 0) by lra. assert (X := xi_pos K G ltac:(lra) ltac:(lra)).
  unfold sp, sq, xi in *. reteq; field; lra.
Qed.
Lemma flex_ratio K G : 0 < K -> 0 < G -> 2/3 <= 6 * (K + 2 * G) / (9 * K + 8 * G) <= 3/2.
Proof. intros. split; [apply le_div_iff|apply div_le_iff]; lra. Qed.

Section Dry.
Variables (f K0 G0 Q : R).
Hypotheses (HK : 0 < K0) (HG : 0 < G0) (H0 : 0 <= f) (H1 : f < 2/5) (HQ : 1 <= Q)
  (HR : K0 <= Q * (G0 * (1 - 5/2 * f))) (HP : f * (1 + 3/4 * Q) < 1).
Lemma flex_dry_next m K G : 0 < K -> 0 < G -> K <= Q * G -> exists K' G',
  EM_SC_flex_step m (Fin f) (Fin K0) (Fin 0) (Fin G0) (Fin 0) (Fin K) (Fin G) = Ret (Fin K', Fin G') /\
  0 < K' <= K0 * (1 - f) /\ 0 < G' <= G0 * (1 - 5/3 * f) /\ K' <= Q * G'.
Proof.
  intros P1 P2 R. rewrite flex_dry by assumption. do 2 eexists. split; [reflexivity|].
  assert (F := flex_ratio K G P1 P2). set (s := 6 * (K + 2 * G) / (9 * K + 8 * G)) in *. clearbody s.
  assert (A : 0 < K / G <= Q) by (split; [apply Rdiv_lt_0_compat; lra|apply div_le_iff; lra]).
  set (r := K / G) in *. clearbody r.
  assert (0 <= f * r) by (apply Rmult_le_pos; lra). assert (f * r <= f * Q) by (apply Rmult_le_compat_l; lra).
  assert (2/3 * f <= f * s <= 3/2 * f) by (split; rewrite (Rmult_comm _ f); apply Rmult_le_compat_l; lra).
  assert (B1 : 0 < 1 - f * (1 + 3/4 * r)) by lra. assert (B2 : 0 < 1 - f * (1 + s)) by lra.
  assert (C1 : K0 * (1 - f * (1 + 3/4 * r)) <= K0 * (1 - f)) by (apply Rmult_le_compat_l; lra).
  assert (C2 : G0 * (1 - 5/2 * f) <= G0 * (1 - f * (1 + s))) by (apply Rmult_le_compat_l; lra).
  assert (C3 : G0 * (1 - f * (1 + s)) <= G0 * (1 - 5/3 * f)) by (apply Rmult_le_compat_l; lra).
  assert (C4 : K0 * (1 - f) <= K0 * 1) by (apply Rmult_le_compat_l; lra).
  assert (C5 : Q * (G0 * (1 - 5/2 * f)) <= Q * (G0 * (1 - f * (1 + s)))) by (apply Rmult_le_compat_l; lra).
  repeat split; try lra; apply Rmult_lt_0_compat; lra.
Qed.
Lemma flex_dry_loop m n : forall K G, 0 < K -> 0 < G -> K <= Q * G -> exists K' G',
  EM_SC_flex_loop m (S n) (Fin f) (Fin K0) (Fin 0) (Fin G0) (Fin 0) (Fin K) (Fin G) = Ret (Fin K', Fin G') /\
  0 < K' <= K0 * (1 - f) /\ 0 < G' <= G0 * (1 - 5/3 * f) /\ K' <= Q * G'.
Proof.
  induction n as [|n IH]; intros K G P1 P2 R; destruct (flex_dry_next m K G P1 P2 R) as (K' & G' & E & A & B & C).
  - exists K', G'. split; [|auto]. cbn [EM_SC_flex_loop]. rewrite E, call_ret. reflexivity.
  - destruct (IH K' G') as (K'' & G'' & E' & X); try lra. exists K'', G''. split; [|exact X].
    rewrite <- E'. change (EM_SC_flex_loop m (S (S n))) with
      (fun f Km Ki Gm Gi K_eff G_eff => call! (K_eff, G_eff) := EM_SC_flex_step m f Km Ki Gm Gi K_eff G_eff in
           EM_SC_flex_loop m (S n) f Km Ki Gm Gi K_eff G_eff). cbv beta. rewrite E, call_ret. reflexivity.
Qed.
End Dry.
