(** * GM.py: stress-induced anisotropy ([johnson]). *)
From Verif Require Import Fl Cx M_Utils M_EM M_GM Spec Spec3 Spec4 RealLemmas L_EM1 L_GM1 L_GM2.
From Coquelicot Require Import Coquelicot.
Open Scope R_scope.

(** ** The integrals *)
Lemma RInt_lin (f g : R -> R) c d : ex_RInt f 0 1 -> ex_RInt g 0 1 ->
  RInt (fun x => c * f x + d * g x) 0 1 = c * RInt f 0 1 + d * RInt g 0 1.
Proof.
  intros A B. apply (is_RInt_unique (V := R_CompleteNormedModule)).
  apply (is_RInt_plus (V := R_NormedModule) (fun x => scal c (f x)) (fun x => scal d (g x))).
  - apply (is_RInt_scal (V := R_NormedModule)). apply (RInt_correct (V := R_CompleteNormedModule)), A.
  - apply (is_RInt_scal (V := R_NormedModule)). apply (RInt_correct (V := R_CompleteNormedModule)), B.
Qed.
Section Int.
Variable a : R.
Hypothesis Ha : 0 < a.
Lemma rad_pos x : 0 < a^2 + x^2.
Proof. assert (0 < a^2) by (apply pow_lt, Ha). assert (0 <= x^2) by apply pow2_ge_0. lra. Qed.
Lemma int_cont k x : continuous (fun x => x^k * sqrt (a^2 + x^2)) x.
Proof.
  apply (ex_derive_continuous (fun x => x^k * sqrt (a^2 + x^2))). auto_derive. 
  assert (H := rad_pos x). simpl in H. lra.
Qed.
Lemma int_ex k : ex_RInt (fun x => x^k * sqrt (a^2 + x^2)) 0 1.
Proof. apply (@ex_RInt_continuous R_CompleteNormedModule). intros x _. apply int_cont. Qed.
Let r x := sqrt (a^2 + x^2).
Lemma nj_I0 : nj_I 0 a = 1/2 * (sqrt (1 + a^2) + a^2 * (ln (1 + sqrt (1 + a^2)) - ln a)).
Proof.
  unfold nj_I. apply is_RInt_unique.
  replace (1/2 * (sqrt (1 + a^2) + a^2 * (ln (1 + sqrt (1 + a^2)) - ln a))) with
    (minus ((fun x => 1/2 * (x * sqrt (a^2 + x^2) + a^2 * ln (x + sqrt (a^2 + x^2)))) 1)
           ((fun x => 1/2 * (x * sqrt (a^2 + x^2) + a^2 * ln (x + sqrt (a^2 + x^2)))) 0)).
  2:{ unfold minus, plus, opp; simpl. replace (a * (a * 1) + 1 * (1 * 1)) with (1 + a^2) by ring.
      replace (a * (a * 1) + 0 * (0 * 1)) with (a^2) by ring. rewrite sqrt_pow2 by lra. rewrite Rplus_0_l.
      replace (a * (a * 1)) with (a^2) by ring. field. }
  apply (is_RInt_derive (fun x => 1/2 * (x * sqrt (a^2 + x^2) + a^2 * ln (x + sqrt (a^2 + x^2))))).
  - intros x Hx. rewrite Rmin_left, Rmax_right in Hx by lra.
    assert (P := rad_pos x). assert (S : 0 < sqrt (a^2 + x^2)) by (apply sqrt_lt_R0, P).
    auto_derive.
    + simpl in *. repeat split; lra.
    + simpl. replace (a * (a * 1) + x * (x * 1)) with (a^2 + x^2) by ring.
      set (s := sqrt (a^2 + x^2)) in *. assert (E : s^2 = a^2 + x^2) by (apply pow2_sqrt; lra).
      replace (a * (a * 1)) with (s^2 - x^2) by lra. field. lra.
  - intros x _. apply int_cont.
Qed.
(** The recurrences, from the derivatives of [x r^3] and [x^3 r^3]. *)
Lemma r_sq x : r x ^ 2 = a^2 + x^2.
Proof. unfold r. apply pow2_sqrt. left. apply rad_pos. Qed.
Lemma nj_I2 : 4 * nj_I 2 a + a^2 * nj_I 0 a = (1 + a^2) * sqrt (1 + a^2).
Proof.
  assert (E : is_RInt (fun x => 4 * (x^2 * sqrt (a^2 + x^2)) + a^2 * (x^0 * sqrt (a^2 + x^2))) 0 1
    ((1 + a^2) * sqrt (1 + a^2))).
  { replace ((1 + a^2) * sqrt (1 + a^2)) with
      (minus ((fun x => x * ((a^2 + x^2) * sqrt (a^2 + x^2))) 1) ((fun x => x * ((a^2 + x^2) * sqrt (a^2 + x^2))) 0)).
    2:{ unfold minus, plus, opp; simpl. replace (a * (a * 1) + 1 * (1 * 1)) with (1 + a^2) by ring. ring_simplify.
        replace (a * (a * 1)) with (a^2) by ring. ring. }
    apply (is_RInt_derive (fun x => x * ((a^2 + x^2) * sqrt (a^2 + x^2)))).
    - intros x Hx. assert (P := rad_pos x). assert (S : 0 < sqrt (a^2 + x^2)) by (apply sqrt_lt_R0, P).
      auto_derive.
      + simpl in *. lra.
      + simpl. replace (a * (a * 1) + x * (x * 1)) with (a^2 + x^2) by ring.
        set (s := sqrt (a^2 + x^2)) in *. assert (E : s^2 = a^2 + x^2) by (apply pow2_sqrt; lra).
        replace (a * (a * 1)) with (s^2 - x^2) by lra. rewrite <- E. field. lra.
    - intros x _. apply (ex_derive_continuous (fun x => 4 * (x^2 * sqrt (a^2 + x^2)) + a^2 * (x^0 * sqrt (a^2 + x^2)))).
      auto_derive. assert (H := rad_pos x). simpl in H. lra. }
  apply (is_RInt_unique (V := R_CompleteNormedModule)) in E. rewrite <- E. symmetry.
  assert (A := int_ex 2). assert (B := int_ex 0). unfold nj_I.
  apply (RInt_lin (fun x => x^2 * sqrt (a^2 + x^2)) (fun x => x^0 * sqrt (a^2 + x^2)) 4 (a^2) A B).
Qed.
Lemma nj_I4 : 6 * nj_I 4 a + 3 * a^2 * nj_I 2 a = (1 + a^2) * sqrt (1 + a^2).
Proof.
  assert (E : is_RInt (fun x => 6 * (x^4 * sqrt (a^2 + x^2)) + 3 * a^2 * (x^2 * sqrt (a^2 + x^2))) 0 1
    ((1 + a^2) * sqrt (1 + a^2))).
  { replace ((1 + a^2) * sqrt (1 + a^2)) with
      (minus ((fun x => x^3 * ((a^2 + x^2) * sqrt (a^2 + x^2))) 1) ((fun x => x^3 * ((a^2 + x^2) * sqrt (a^2 + x^2))) 0)).
    2:{ unfold minus, plus, opp; simpl. replace (a * (a * 1) + 1 * (1 * 1)) with (1 + a^2) by ring. ring_simplify.
        replace (a * (a * 1)) with (a^2) by ring. ring. }
    apply (is_RInt_derive (fun x => x^3 * ((a^2 + x^2) * sqrt (a^2 + x^2)))).
    - intros x Hx. assert (P := rad_pos x). assert (S : 0 < sqrt (a^2 + x^2)) by (apply sqrt_lt_R0, P).
      auto_derive.
      + simpl in *. lra.
      + simpl. replace (a * (a * 1) + x * (x * 1)) with (a^2 + x^2) by ring.
        set (s := sqrt (a^2 + x^2)) in *. assert (E : s^2 = a^2 + x^2) by (apply pow2_sqrt; lra).
        replace (a * (a * 1)) with (s^2 - x^2) by lra. rewrite <- E. field. lra.
    - intros x _. apply (ex_derive_continuous (fun x => 6 * (x^4 * sqrt (a^2 + x^2)) + 3 * a^2 * (x^2 * sqrt (a^2 + x^2)))).
      auto_derive. assert (H := rad_pos x). simpl in H. lra. }
  apply (is_RInt_unique (V := R_CompleteNormedModule)) in E. rewrite <- E. symmetry.
  assert (A := int_ex 4). assert (B := int_ex 2). unfold nj_I.
  apply (RInt_lin (fun x => x^4 * sqrt (a^2 + x^2)) (fun x => x^2 * sqrt (a^2 + x^2)) 6 (3 * a^2) A B).
Qed.
(** Higher moments are smaller. *)
Lemma nj_lt k : nj_I (S (S k)) a < nj_I k a.
Proof.
  unfold nj_I. apply RInt_lt; [lra| | |]; try (intros x _; apply int_cont).
  intros x Hx. assert (S : 0 < sqrt (a^2 + x^2)) by (apply sqrt_lt_R0, rad_pos).
  apply Rmult_lt_compat_r; [exact S|]. assert (P : 0 < x^k) by (apply pow_lt; lra). simpl.
  set (p := x^k) in *. assert (0 < p * (1 - x) * (1 + x)) by (apply Rmult_lt_0_compat; [apply Rmult_lt_0_compat|]; lra). lra.
Qed.
Lemma nj_pos k : 0 < nj_I k a.
Proof.
  unfold nj_I. apply RInt_gt_0; [lra| |]; try (intros x _; apply int_cont).
  intros x Hx. assert (S : 0 < sqrt (a^2 + x^2)) by (apply sqrt_lt_R0, rad_pos).
  apply Rmult_lt_0_compat; [|exact S]. apply pow_lt; lra.
Qed.
End Int.

(** ** The code's expressions *)
Definition jI0 al := 1/2 * (sqrt (1 + al^2) + al^2 * ln (1 + sqrt (1 + al^2) / al)).
Definition jI2 al := 1/4 * ((1 + al^2) * sqrt (1 + al^2) - al^2 * jI0 al).
Definition jI4 al := 1/6 * ((1 + al^2) * sqrt (1 + al^2) - 3 * al^2 * jI2 al).
Lemma jI0_exact al : 0 < al -> (jI0 al = nj_I 0 al <-> al = 1).
Proof.
  intros H. rewrite nj_I0 by assumption. unfold jI0. assert (0 < al^2) by (apply pow_lt, H).
  assert (S : 0 < sqrt (1 + al^2)) by (apply sqrt_lt_R0; lra). set (s := sqrt (1 + al^2)) in *.
  assert (Q : 0 < s / al) by (apply Rdiv_lt_0_compat; lra).
  split.
  - intros E. assert (E2 : ln (1 + s / al) = ln ((1 + s) / al)).
    { unfold Rdiv at 2. rewrite ln_mult by (try apply Rinv_0_lt_compat; lra). rewrite ln_Rinv by assumption.
      assert (X : al^2 * (ln (1 + s / al) - (ln (1 + s) - ln al)) = 0) by lra.
      apply Rmult_integral in X. destruct X; lra. }
    apply ln_inv in E2; [|lra|apply Rdiv_lt_0_compat; lra].
    assert (X : (1 + s / al) * al = (1 + s) / al * al) by (rewrite E2; reflexivity).
    unfold Rdiv in X. rewrite Rmult_plus_distr_r, !Rmult_assoc, Rinv_l in X by lra. lra.
  - intros ->. rewrite ln_1. replace (1 + s / 1) with (1 + s) by field. lra.
Qed.
Lemma jI2_exact : jI2 1 = nj_I 2 1.
Proof.
  assert (E := proj2 (jI0_exact 1 ltac:(lra)) eq_refl). assert (F := nj_I2 1 ltac:(lra)). unfold jI2. rewrite E. lra.
Qed.
Lemma jI4_exact : jI4 1 = nj_I 4 1.
Proof.
  assert (E := jI2_exact). assert (F := nj_I4 1 ltac:(lra)). unfold jI4. rewrite E. lra.
Qed.

Lemma Rpower_3_2 x : 0 < x -> Rpower x (3/2) = x * sqrt x.
Proof.
  intros H. replace (3/2) with (1 + /2) by field. rewrite Rpower_plus, Rpower_1, Rpower_sqrt by assumption. reflexivity.
Qed.

Section J.
Variables (m : mode) (K0 G0 n phi e ea : R).
Hypotheses (HK : 0 < K0) (HG : 0 < G0) (Hn : 0 < n) (Hp : 0 <= phi < 1) (He : e < 0) (Hea : ea < 0).
Let nu := poisson K0 G0.
Let Cn := 4 * G0 / (1 - nu).
Let Ct := 8 * G0 / (2 - nu).
Let Bw := 2 / (PI * Cn).
Let Cw := 4 / PI * (1 / Ct - 1 / Cn).
Let gam := 3 / 32 * Cn * Ct * n * (1 - phi) * sqrt (- e).
Let al := sqrt (e / ea).
Let I0 := jI0 al.
Let I2 := jI2 al.
Let I4 := jI4 al.
Let T := - Rpower (- e) (3/2) * (1 - phi) * n / (4 * PI * al^3).
Definition j11 := gam / al * (4 * Bw / 3 + 2 * Cw / 5 + e / ea * (2 * Bw / 15 + Cw / 35)).
Definition j33 := gam / al * (4 * Bw * I2 + 2 * Cw * I4).
Definition j13 := gam / al * Cw * (I2 - I4).
Definition j44 := gam / al * (Bw / 2 * (I0 + I2) + Cw * (I2 - I4)).
Definition j66 := gam / al * (Bw * (I0 - I2) + Cw / 4 * (I0 - 2 * I2 + I4)).
Definition jmat : mat :=
  [[Fin j11; Fin (j11 - 2 * j66); Fin j13; #0; #0; #0]; [Fin (j11 - 2 * j66); Fin j11; Fin j13; #0; #0; #0];
   [Fin j13; Fin j13; Fin j33; #0; #0; #0]; [#0; #0; #0; Fin j44; #0; #0]; [#0; #0; #0; #0; Fin j44; #0];
   [#0; #0; #0; #0; #0; Fin j66]]%fl.
Definition js33 := 2 * T * (Ct * (I2 - I4) + Cn * (al^2 * I2 + I4)).
Definition js11 := T * (- Ct * (I2 - I4) + Cn * (al^2 * I0 + (1 - al^2) * I2 - I4)).
Definition js33u := 2 * T * (1 / 12 * Ct + Cn * (al^2 * I2 + I4)).
Definition js11u := T * (-1 / 12 * Ct + Cn * (al^2 * I0 + (1 - al^2) * I2 - I4)).
Definition js33i := 2 * T * (Ct * (al^2 * I0 + (1 - al^2) * I2 - I4 - 2 * al^3 / 3) + Cn * (al^2 * I2 + I4)).
Definition js11i := T * (- Ct * (al^2 * I0 + (1 - al^2) * I2 - I4 - 2 * al^3 / 3 + Cn * (al^2 * I0 + (1 - al^2) * I2 - I4))).

Lemma q_pos : 0 < e / ea.
Proof. replace (e / ea) with ((- e) / (- ea)) by (field; lra). apply Rdiv_lt_0_compat; lra. Qed.
Lemma al_pos : 0 < al.
Proof. apply sqrt_lt_R0, q_pos. Qed.
Lemma al_sq : al^2 = e / ea.
Proof. apply pow2_sqrt. left. apply q_pos. Qed.
Lemma Cn_pos : 0 < Cn.
Proof. unfold Cn. apply Rdiv_lt_0_compat; [lra|]. apply nu_1p; auto. Qed.
Lemma Ct_pos : 0 < Ct.
Proof. unfold Ct. apply Rdiv_lt_0_compat; [lra|]. apply nu_2p; auto. Qed.
Lemma Cw_eq : Cw = nu / (2 * PI * G0).
Proof.
  unfold Cw, Ct, Cn. assert (A := nu_1p K0 G0 HK HG). assert (B := nu_2p K0 G0 HK HG). fold nu in A, B.
  assert (0 < PI) by apply PI_RGT_0. field. repeat split; lra.
Qed.
Lemma Bw_pos : 0 < Bw.
Proof. unfold Bw. assert (0 < PI) by apply PI_RGT_0. apply Rdiv_lt_0_compat; [lra|]. apply Rmult_lt_0_compat; [lra|apply Cn_pos]. Qed.
Lemma gam_pos : 0 < gam.
Proof.
  unfold gam. assert (A := Cn_pos). assert (B := Ct_pos). assert (0 < sqrt (- e)) by (apply sqrt_lt_R0; lra).
  assert (0 < 1 - phi) by lra. apply Rmult_lt_0_compat; [|lra]. apply Rmult_lt_0_compat; [|lra].
  apply Rmult_lt_0_compat; [|lra]. apply Rmult_lt_0_compat; lra.
Qed.
Lemma johnson_fin path :
  GM_johnson m (Fin K0) (Fin G0) (Fin n) (Fin phi) (Fin e) (Fin ea) path =
  if String.eqb path "together" then Ret (jmat, Fin js33, Fin js11)
  else if String.eqb path "uni_iso" then Ret (jmat, Fin js33u, Fin js11u)
  else if String.eqb path "iso-uni" then Ret (jmat, Fin js33i, Fin js11i)
  else Raise UnboundLocalError.
Proof.
  unfold GM_johnson, utils_poi.
  assert (D := nu_den K0 G0 HK HG). assert (N1 := nu_1p K0 G0 HK HG). assert (N2 := nu_2p K0 G0 HK HG).
  assert (PP : 0 < PI) by apply PI_RGT_0. assert (A := al_pos). assert (Q := q_pos).
  assert (C1 := Cn_pos). assert (C2 := Ct_pos). assert (0 < al^2) by (apply pow_lt, A).
  do 2 (repeat (first [fl1 | rewrite fdiv_fin by lra]; cbv beta)).
  change ((3 * K0 - 2 * G0) / (6 * K0 + 2 * G0)) with nu. fold nu in N1, N2.
  do 2 (repeat (first [fl1 | rewrite fdiv_fin by lra]; cbv beta)).
  change (4 * G0 / (1 - nu)) with Cn. change (8 * G0 / (2 - nu)) with Ct.
  assert (X : PI * Cn <> 0) by (apply Rgt_not_eq; unfold Rgt; apply Rmult_lt_0_compat; lra).
  do 2 (repeat (first [fl1 | rewrite fdiv_fin by (assumption || lra)]; cbv beta)).
  change (2 / (PI * Cn)) with Bw. change (4 / PI * (1 / Ct - 1 / Cn)) with Cw.
  rewrite (fsqrt_fin (- e)) by lra. rewrite (fsqrt_fin (e / ea)) by lra.
  do 2 (repeat (first [fl1 | rewrite fdiv_fin by (assumption || lra)]; cbv beta)).
  change (3 / 32 * Cn * Ct * n * (1 - phi) * sqrt (- e)) with gam. change (sqrt (e / ea)) with al.
  rewrite (fsqrt_fin (1 + al^2)) by lra.
  assert (S : 0 < sqrt (1 + al^2)) by (apply sqrt_lt_R0; lra).
  assert (0 < sqrt (1 + al^2) / al) by (apply Rdiv_lt_0_compat; lra).
  do 2 (repeat (first [fl1 | rewrite fdiv_fin by (assumption || lra) | rewrite flog_fin by lra]; cbv beta)).
  rewrite (fpow_fin _ (1 + al^2)) by lra. rewrite (fpow_fin _ (- e)) by lra. rewrite (Rpower_3_2 (1 + al^2)) by lra.
  assert (Y : 4 * PI * al^3 <> 0) by (apply Rgt_not_eq; unfold Rgt; apply Rmult_lt_0_compat; [lra|apply pow_lt, A]).
  change (1 / 2 * (sqrt (1 + al ^ 2) + al ^ 2 * ln (1 + sqrt (1 + al ^ 2) / al))) with I0.
  repeat (first [fl1 | rewrite fdiv_fin by (assumption || lra)]; cbv beta).
  change (1 / 4 * ((1 + al ^ 2) * sqrt (1 + al ^ 2) - al ^ 2 * I0)) with I2.
  change (1 / 6 * ((1 + al ^ 2) * sqrt (1 + al ^ 2) - 3 * al ^ 2 * I2)) with I4.
  unfold utils_write_VTI_matrix. repeat (first [fl1 | rewrite fdiv_fin by (assumption || lra)]; cbv beta).
  change (- Rpower (- e) (3 / 2) * (1 - phi) * n / (4 * PI * al ^ 3)) with T.
  destruct (String.eqb path "together"); [|destruct (String.eqb path "uni_iso"); [|destruct (String.eqb path "iso-uni")]];
    try reflexivity;
  repeat (first [fl1 | rewrite fdiv_fin by (assumption || lra)]; cbv beta); reflexivity.
Qed.
End J.
