(** * Elementary real lemmas used by the proofs. *)
From Coq Require Import Reals Lra Psatz.
Open Scope R_scope.

Lemma sq_le x y : 0 <= y -> x^2 <= y^2 -> x <= y.
Proof. intros Hy H. apply Rsqr_incr_0_var; [unfold Rsqr; lra | exact Hy]. Qed.
Lemma sq_inj x y : 0 <= x -> 0 <= y -> x^2 = y^2 -> x = y.
Proof. intros Hx Hy H. apply Rle_antisym; apply sq_le; lra. Qed.
Lemma mean_le_sqrt x y z : 0 <= x -> 0 <= y -> z^2 <= x * y -> 2 * z <= x + y.
Proof.
  intros Hx Hy H. apply sq_le; [lra|].
  assert (0 <= (x-y)^2) by apply pow2_ge_0. nra.
Qed.
Lemma div_le_iff a b c : 0 < b -> (a / b <= c <-> a <= c * b).
Proof.
  intros Hb. split; intros H.
  - replace a with (a / b * b) by (field; lra). apply Rmult_le_compat_r; lra.
  - apply Rmult_le_reg_r with b; [assumption|]. replace (a / b * b) with a by (field; lra). exact H.
Qed.
Lemma le_div_iff a b c : 0 < b -> (c <= a / b <-> c * b <= a).
Proof.
  intros Hb. split; intros H.
  - replace a with (a / b * b) by (field; lra). apply Rmult_le_compat_r; lra.
  - apply Rmult_le_reg_r with b; [assumption|]. replace (a / b * b) with a by (field; lra). exact H.
Qed.
Lemma lt_div_iff a b c : 0 < b -> (c < a / b <-> c * b < a).
Proof.
  intros Hb. split; intros H.
  - replace a with (a / b * b) by (field; lra). apply Rmult_lt_compat_r; lra.
  - apply Rmult_lt_reg_r with b; [assumption|]. replace (a / b * b) with a by (field; lra). exact H.
Qed.
Lemma div_lt_iff a b c : 0 < b -> (a / b < c <-> a < c * b).
Proof.
  intros Hb. split; intros H.
  - replace a with (a / b * b) by (field; lra). apply Rmult_lt_compat_r; lra.
  - apply Rmult_lt_reg_r with b; [assumption|]. replace (a / b * b) with a by (field; lra). exact H.
Qed.
Lemma div_le_div a b c d : 0 < b -> 0 < d -> a * d <= c * b -> a / b <= c / d.
Proof.
  intros Hb Hd H. apply div_le_iff; [assumption|].
  replace (c / d * b) with ((c * b) / d) by (field; lra).
  apply le_div_iff; assumption.
Qed.
Lemma div_lt_div a b c d : 0 < b -> 0 < d -> a * d < c * b -> a / b < c / d.
Proof.
  intros Hb Hd H. apply div_lt_iff; [assumption|].
  replace (c / d * b) with ((c * b) / d) by (field; lra).
  apply lt_div_iff; assumption.
Qed.
Lemma inv_le a b : 0 < a -> a <= b -> / b <= / a.
Proof. intros Ha H. apply Rinv_le_contravar; assumption. Qed.
Lemma inv_lt a b : 0 < a -> a < b -> / b < / a.
Proof. intros Ha H. apply Rinv_lt_contravar; [apply Rmult_lt_0_compat; lra | assumption]. Qed.
