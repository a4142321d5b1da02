(** * Thin cracks: Eshelby_Cheng tends to Hudson's first-order result. *)
From Coq Require Import Lra Lia Reals Ratan.
From Verif Require Import Fl M_Utils M_EM Spec RealLemmas L_Utils L_EM2 L_EM4.
Open Scope R_scope.

Lemma continuity_pt_ext (f g : R -> R) x : (forall a, f a = g a) -> continuity_pt f x -> continuity_pt g x.
Proof. intros H C e He. destruct (C e He) as (d & Hd & B). exists d. split; [exact Hd|]. intros y Hy. rewrite <- !H. auto. Qed.
(** Continuity at a point, by structure. *)
Ltac cont := match goal with
  | H : continuity_pt ?f ?x |- continuity_pt ?f ?x => exact H
  | H : continuity_pt ?f ?x |- continuity_pt (fun a => ?f a) ?x => exact H
  | |- continuity_pt (fun _ => ?c) _ => apply continuity_pt_const; intros ? ?; reflexivity
  | |- continuity_pt (fun a => a) _ => apply derivable_continuous_pt, derivable_pt_id
  | |- continuity_pt (fun a => @?f a + @?g a) _ => apply (continuity_pt_plus f g); cont
  | |- continuity_pt (fun a => @?f a - @?g a) _ => apply (continuity_pt_minus f g); cont
  | |- continuity_pt (fun a => @?f a * @?g a) _ => apply (continuity_pt_mult f g); cont
  | |- continuity_pt (fun a => - @?f a) _ => apply (continuity_pt_opp f); cont
  | |- continuity_pt (fun a => @?f a / @?g a) _ => apply (continuity_pt_div f g); [cont|cont|cbv beta]
  | |- continuity_pt (fun a => @?f a ^ 2) _ => apply (continuity_pt_ext (fun a => f a * f a)); [intros; ring|]; cont
  | |- continuity_pt (fun a => @?f a ^ 3) _ => apply (continuity_pt_ext (fun a => f a * f a * f a)); [intros; ring|]; cont
  | |- _ => idtac end.
Lemma near f x l : continuity_pt f x -> f x = l -> forall e, 0 < e -> exists d, 0 < d /\ forall y, Rabs (y - x) < d -> Rabs (f y - l) < e.
Proof.
  intros C <- e He. destruct (C e He) as (d & Hd & B). exists d. split; [exact Hd|]. intros y Hy.
  destruct (Req_dec y x) as [->|N]; [rewrite Rminus_diag_eq, Rabs_R0 by reflexivity; exact He|].
  apply (B y). split; [split; [exact I|congruence]|exact Hy].
Qed.

Definition ia (a : R) := 2 * PI * (acos a - a * sqrt (1 - a^2)) / (sqrt (1 - a^2))^3.
Lemma ia_0 : ia 0 = PI^2.
Proof. unfold ia. replace (1 - 0^2) with 1 by ring. rewrite sqrt_1, acos_0. field. Qed.
Lemma ia_cont : continuity_pt ia 0.
Proof.
  assert (S : continuity_pt (fun a => sqrt (1 - a^2)) 0).
  { apply (continuity_pt_comp (fun a => 1 - a^2) sqrt); [cont|]. apply continuity_pt_sqrt. lra. }
  assert (A : continuity_pt acos 0) by (apply derivable_continuous_pt, derivable_pt_acos; lra).
  unfold ia. cont. replace (1 - 0^2) with 1 by ring. rewrite sqrt_1. lra.
Qed.
Lemma ia_I1 a : esh_I1 a = a * ia a.
Proof. unfold esh_I1, ia, Rdiv. ring. Qed.

Section T.
Variables (m : mode) (K G k e : R).
Hypotheses (HK : 0 < K) (HG : 0 < G) (Hk : 0 <= k).
Definition tnu := (3*K - 2*G) / (6*K + 2*G).
Definition tp := 8 * PI * (1 - tnu).
Definition tJ a := (4 * PI - 3 * (a * ia a)) / (1 - a^2).
Definition t11 a := (3 * (PI - tJ a / 4) + (1 - 2 * tnu) * (a * ia a)) / tp.
Definition t12 a := ((PI - tJ a / 4) - (1 - 2 * tnu) * (a * ia a)) / tp.
Definition t13 a := (a * tJ a - (1 - 2 * tnu) * ia a) / tp.
Definition t31 a := (tJ a - (1 - 2 * tnu) * (4 * PI - 2 * (a * ia a))) / tp.
Definition t33 a := (- 2 * (a * tJ a) - 2 * (1 - 2 * tnu) * ia a) / tp.
Definition tc a := k / (3 * (K - k * a)).
Definition tD a := t33 a * (t11 a + t12 a) - 2 * t31 a * t13 a - t33 a + 3 * tc a
  - tc a * (t11 a + t12 a + 2 * (1 + a * t33 a - a * t13 a - t31 a)).
Definition tE a := t33 a * t11 a - t31 a * t13 a - t33 a + 2 * tc a + tc a * (t31 a + a * t13 a - t11 a - (1 + a * t33 a)).
Definition th a := (- (4 * PI * (2 * a) / (1 - a^2)) + 3 * ia a * (1 + a^2) / (1 - a^2) + (1 - 2 * tnu) * ia a) / tp.
Definition tg a := 1 - (2 * (PI - tJ a / 4) + (1 - 2 * tnu) * (2 * (a * ia a))) / tp.

Lemma tnu_facts : 0 < 1 - tnu /\ 0 < 1 - 2 * tnu /\ 0 < tp.
Proof.
  destruct (nu_facts K G HK HG) as (_ & A & B). fold tnu in A, B. split; [exact A|]. split; [exact B|].
  unfold tp. assert (P := PI_RGT_0). apply Rmult_lt_0_compat; lra.
Qed.
Lemma t_S a : 0 < a < 1 -> esh_S tnu a 0 0 = t11 a /\ esh_S tnu a 0 1 = t12 a /\ esh_S tnu a 0 2 = a * t13 a /\
  esh_S tnu a 2 0 = t31 a /\ esh_S tnu a 2 2 = 1 + a * t33 a /\
  1 - 2 * esh_shear tnu a 0 2 = a * th a /\ 1 - 2 * esh_shear tnu a 0 1 = tg a.
Proof.
  intros Ha. destruct tnu_facts as (N1 & N2 & N3). assert (P := PI_RGT_0). assert (Q : 0 < 1 - a^2) by nra.
  unfold esh_S, esh_shear, esh_II, esh_axis, esh_I, rows, t11, t12, t13, t31, t33, th, tg, tJ. cbn [nth Nat.eqb]. rewrite ia_I1.
  set (i := ia a). set (n := tnu) in *. unfold tp in *. fold n in N3 |- *. clearbody i n.
  repeat split; field; repeat split; try lra; nra.
Qed.
Lemma t_cont : continuity_pt tJ 0 /\ continuity_pt t11 0 /\ continuity_pt t12 0 /\ continuity_pt t13 0 /\ continuity_pt t31 0 /\
  continuity_pt t33 0 /\ continuity_pt tc 0 /\ continuity_pt tD 0 /\ continuity_pt tE 0 /\ continuity_pt th 0 /\ continuity_pt tg 0.
Proof.
  destruct tnu_facts as (N1 & N2 & N3). assert (I := ia_cont).
  assert (CJ : continuity_pt tJ 0) by (unfold tJ; cont; lra).
  assert (C1 : continuity_pt t11 0) by (unfold t11; cont; lra).
  assert (C2 : continuity_pt t12 0) by (unfold t12; cont; lra).
  assert (C3 : continuity_pt t13 0) by (unfold t13; cont; lra).
  assert (C4 : continuity_pt t31 0) by (unfold t31; cont; lra).
  assert (C5 : continuity_pt t33 0) by (unfold t33; cont; lra).
  assert (C6 : continuity_pt tc 0) by (unfold tc; cont; lra).
  assert (C7 : continuity_pt tD 0) by (unfold tD; cont; lra).
  assert (C8 : continuity_pt tE 0) by (unfold tE; cont; lra).
  assert (C9 : continuity_pt th 0) by (unfold th; cont; lra).
  assert (CA : continuity_pt tg 0) by (unfold tg; cont; lra).
  repeat split; assumption.
Qed.
Lemma t_0 : t11 0 = 0 /\ t12 0 = 0 /\ t13 0 = - ((1 - 2 * tnu) * PI / (8 * (1 - tnu))) /\ t31 0 = tnu / (1 - tnu) /\
  t33 0 = - ((1 - 2 * tnu) * PI / (4 * (1 - tnu))) /\ tc 0 = k / (3 * K) /\
  tD 0 = (1 - 2 * tnu) * PI / (4 * (1 - tnu)^2) + k / (3 * K) * (1 + tnu) / (1 - tnu) /\
  th 0 = (2 - tnu) * PI / (4 * (1 - tnu)) /\ tg 0 = 1.
Proof.
  destruct tnu_facts as (N1 & N2 & N3). assert (P := PI_RGT_0).
  assert (J : tJ 0 = 4 * PI) by (unfold tJ; field).
  assert (E1 : t11 0 = 0) by (unfold t11; rewrite J; field; lra).
  assert (E2 : t12 0 = 0) by (unfold t12; rewrite J; field; lra).
  assert (E3 : t13 0 = - ((1 - 2 * tnu) * PI / (8 * (1 - tnu)))) by (unfold t13, tp; rewrite J, ia_0; field; lra).
  assert (E4 : t31 0 = tnu / (1 - tnu)) by (unfold t31, tp; rewrite J; field; lra).
  assert (E5 : t33 0 = - ((1 - 2 * tnu) * PI / (4 * (1 - tnu)))) by (unfold t33, tp; rewrite J, ia_0; field; lra).
  assert (E6 : tc 0 = k / (3 * K)) by (unfold tc; rewrite Rmult_0_r, Rminus_0_r; reflexivity).
  do 6 (split; [assumption|]). split; [|split].
  - unfold tD. rewrite E1, E2, E3, E4, E5, E6. field. lra.
  - unfold th, tp. rewrite ia_0. field. lra.
  - unfold tg. rewrite J. field. lra.
Qed.
Let lam := K - 2/3 * G.
Definition F33 a := 4/3 * PI * e * ((lam + 2 * G) * (- t12 a - t11 a + 1) + 2 * lam * (a * t13 a) + 4 * G * (a * tc a)) / tD a.
Definition F13 a := 4/3 * PI * e * ((lam + 2 * G) * (a * t13 a + t31 a) - 4 * G * (a * tc a) + lam * (a * t13 a - t12 a - t11 a - (1 + a * t33 a) + 2)) / (2 * tD a).
Definition F44 a := 4/3 * PI * e * G / th a.
Definition F66 a := 4/3 * PI * a * e * G / tg a.
Definition F11 a := 4/3 * PI * a * e * (lam * (t31 a - (1 + a * t33 a) + 1) + 2 * G * tE a / (tD a * (t12 a - t11 a + 1))).
Lemma t_pos : 0 < tD 0 /\ 0 < th 0.
Proof.
  destruct tnu_facts as (N1 & N2 & N3). assert (P := PI_RGT_0). destruct t_0 as (_ & _ & _ & _ & _ & _ & -> & -> & _).
  assert (Q : 0 < 1 + tnu). { replace (1 + tnu) with (9 * K / (6 * K + 2 * G)) by (unfold tnu; field; lra). apply Rdiv_lt_0_compat; lra. }
  split.
  - apply Rplus_lt_le_0_compat.
    + apply Rdiv_lt_0_compat; [apply Rmult_lt_0_compat; lra|]. assert (0 < (1 - tnu)^2) by (apply pow_lt; lra). lra.
    + apply Rmult_le_pos; [apply Rmult_le_pos; [apply Rmult_le_pos; [lra|left; apply Rinv_0_lt_compat; lra]|lra]|left; apply Rinv_0_lt_compat; lra].
  - apply Rdiv_lt_0_compat; [apply Rmult_lt_0_compat; lra|lra].
Qed.
Lemma F_cont : continuity_pt F33 0 /\ continuity_pt F13 0 /\ continuity_pt F44 0 /\ continuity_pt F66 0 /\ continuity_pt F11 0.
Proof.
  destruct t_cont as (CJ & C1 & C2 & C3 & C4 & C5 & C6 & C7 & C8 & C9 & CA). destruct t_pos as (P1 & P2).
  destruct t_0 as (Z1 & Z2 & _ & _ & _ & _ & _ & _ & Zg).
  split; [unfold F33; cont; lra|]. split; [unfold F13; cont; lra|]. split; [unfold F44; cont; lra|].
  split; [unfold F66; cont; rewrite Zg; lra|]. unfold F11. cont. rewrite Z1, Z2. lra.
Qed.
Lemma F_0 al : 0 < al ->
  F33 0 = (lam + 2*G)^2 * e * penny_U3 lam G (k * al) 0 al / G /\
  F13 0 = lam * (lam + 2*G) * e * penny_U3 lam G (k * al) 0 al / G /\
  F44 0 = G * e * penny_U1 lam G 0 al /\ F66 0 = 0 /\ F11 0 = 0.
Proof.
  intros Ha. destruct t_0 as (Z1 & Z2 & Z3 & Z4 & Z5 & Z6 & Z7 & Z8 & Z9). destruct t_pos as (P1 & P2). assert (P := PI_RGT_0).
  assert (L1 : 0 < lam + G) by (unfold lam; lra). assert (L2 : 0 < lam + 2 * G) by (unfold lam; lra). assert (L3 : 0 < 3 * lam + 4 * G) by (unfold lam; lra).
  assert (L4 : 0 < 3 * lam + 2 * G) by (unfold lam; lra).
  assert (EK : K = lam + 2/3 * G) by (unfold lam; ring).
  assert (En : tnu = lam / (2 * (lam + G))) by (unfold tnu; rewrite EK; field; lra).
  assert (ED : tD 0 = (G * PI * (lam + G) + k * (lam + 2*G)) / (lam + 2*G)^2).
  { rewrite Z7, En, EK. field. lra. }
  assert (PD : 0 < G * PI * (lam + G) + k * (lam + 2*G)).
  { apply Rplus_lt_le_0_compat; [apply Rmult_lt_0_compat; [apply Rmult_lt_0_compat; lra|lra]|apply Rmult_le_pos; lra]. }
  assert (E3 : penny_U3 lam G (k * al) 0 al = 4 * (lam + 2*G) * PI * G / (3 * (G * PI * (lam + G) + k * (lam + 2*G)))).
  { unfold penny_U3. field. repeat split; try lra. }
  assert (E1 : penny_U1 lam G 0 al = 16 * (lam + 2*G) / (3 * (3*lam + 4*G))).
  { unfold penny_U1. field. repeat split; lra. }
  rewrite E3, E1.
  split; [unfold F33; rewrite ED, Z1, Z2; field; repeat split; lra|].
  split; [unfold F13; rewrite ED, Z1, Z2, Z4, En; field; repeat split; try lra|].
  split; [unfold F44; rewrite Z8, En; field; repeat split; lra|].
  split; [unfold F66; rewrite Z9; field|unfold F11; ring].
Qed.
Lemma thin_eval a : 0 < a < 1 -> k * a < K -> tD a <> 0 -> th a <> 0 -> tg a <> 0 -> t12 a - t11 a + 1 <> 0 ->
  EM_Eshelby_Cheng m (Fin K) (Fin G) (Fin (4/3 * PI * a * e)) (Fin a) (Fin (k * a)) false =
  Ret (EC_array (Fin (lam + 2 * G - F11 a)) (Fin (lam + 2 * G - F33 a)) (Fin (lam - F13 a)) (Fin (G - F44 a)) (Fin (G - F66 a))).
Proof.
  intros Ha Hka ND Nh Ng Ns. rewrite esh_eval by lra. fold tnu. fold lam.
  destruct (t_S a Ha) as (-> & -> & -> & -> & -> & -> & ->).
  assert (EC : k * a / (3 * (K - k * a)) = a * tc a) by (unfold tc; field; lra). rewrite EC. clear EC.
  assert (ED : (1 + a * t33 a) * t11 a + (1 + a * t33 a) * t12 a - 2 * t31 a * (a * t13 a) - (t11 a + t12 a + (1 + a * t33 a) - 1 - 3 * (a * tc a))
      - a * tc a * (t11 a + t12 a + 2 * (1 + a * t33 a - a * t13 a - t31 a)) = a * tD a) by (unfold tD; ring).
  rewrite ED.
  assert (EE : (1 + a * t33 a) * t11 a - t31 a * (a * t13 a) - (1 + a * t33 a + t11 a - 2 * (a * tc a) - 1)
      + a * tc a * (t31 a + a * t13 a - t11 a - (1 + a * t33 a)) = a * tE a) by (unfold tE; ring).
  rewrite EE.
  assert (N1 : a * tD a <> 0) by (apply Rmult_integral_contrapositive_currified; lra).
  assert (N2 : a * th a <> 0) by (apply Rmult_integral_contrapositive_currified; lra).
  assert (N3 : 2 * (a * tD a) <> 0) by lra.
  assert (N4 : a * tD a * (t12 a - t11 a + 1) <> 0) by (apply Rmult_integral_contrapositive_currified; lra).
  repeat (first [fl1 | rewrite fdiv_fin by assumption]; cbv beta).
  unfold F11, F33, F13, F44, F66.
  f_equal. f_equal; f_equal; field; repeat split; try assumption; lra.
Qed.
Lemma thin_limit al0 : 0 < al0 -> forall eps, 0 < eps -> exists d, 0 < d /\ forall a, 0 < a < d -> exists c11 c33 c13 c44 c66,
  EM_Eshelby_Cheng m (Fin K) (Fin G) (Fin (4/3 * PI * a * e)) (Fin a) (Fin (k * a)) false =
    Ret (EC_array (Fin c11) (Fin c33) (Fin c13) (Fin c44) (Fin c66)) /\
  Rabs (c11 - (lam + 2 * G)) < eps /\
  Rabs (c33 - (lam + 2 * G - (lam + 2*G)^2 * e * penny_U3 lam G (k * al0) 0 al0 / G)) < eps /\
  Rabs (c13 - (lam - lam * (lam + 2*G) * e * penny_U3 lam G (k * al0) 0 al0 / G)) < eps /\
  Rabs (c44 - (G - G * e * penny_U1 lam G 0 al0)) < eps /\ Rabs (c66 - G) < eps.
Proof.
  intros Ha0 eps He.
  destruct t_cont as (_ & C1 & C2 & _ & _ & _ & _ & C7 & _ & C9 & CA). destruct t_pos as (P1 & P2).
  destruct t_0 as (Z1 & Z2 & _ & _ & _ & _ & _ & _ & Zg).
  destruct F_cont as (K33 & K13 & K44 & K66 & K11). destruct (F_0 al0 Ha0) as (L33 & L13 & L44 & L66 & L11).
  destruct (near _ _ _ C7 eq_refl _ P1) as (d1 & Q1 & B1). destruct (near _ _ _ C9 eq_refl _ P2) as (d2 & Q2 & B2).
  destruct (near _ _ _ CA Zg 1 ltac:(lra)) as (d3 & Q3 & B3).
  assert (CS : continuity_pt (fun a => t12 a - t11 a + 1) 0) by cont.
  destruct (near _ _ 1 CS ltac:(cbv beta; lra) 1 ltac:(lra)) as (d4 & Q4 & B4).
  destruct (near _ _ _ K33 L33 eps He) as (d5 & Q5 & B5). destruct (near _ _ _ K13 L13 eps He) as (d6 & Q6 & B6).
  destruct (near _ _ _ K44 L44 eps He) as (d7 & Q7 & B7). destruct (near _ _ _ K66 L66 eps He) as (d8 & Q8 & B8).
  destruct (near _ _ _ K11 L11 eps He) as (d9 & Q9 & B9).
  assert (Q0 : 0 < K / (k + 1)) by (apply Rdiv_lt_0_compat; lra).
  exists (Rmin (Rmin (Rmin (Rmin d1 d2) (Rmin d3 d4)) (Rmin (Rmin d5 d6) (Rmin d7 d8))) (Rmin (Rmin d9 1) (K / (k + 1)))).
  split. { repeat apply Rmin_glb_lt; lra. }
  intros a (Ha & Hd).
  assert (M : a < d1 /\ a < d2 /\ a < d3 /\ a < d4 /\ a < d5 /\ a < d6 /\ a < d7 /\ a < d8 /\ a < d9 /\ a < 1 /\ a < K / (k + 1)).
  { repeat match goal with H : a < Rmin _ _ |- _ => apply Rmin_Rgt in H; destruct H | H : Rmin _ _ > a |- _ => apply Rmin_Rgt in H; destruct H end. unfold Rgt in *. repeat split; assumption. }
  destruct M as (M1 & M2 & M3 & M4 & M5 & M6 & M7 & M8 & M9 & M10 & M11).
  assert (AA : Rabs (a - 0) = a) by (rewrite Rminus_0_r; apply Rabs_pos_eq; lra).
  assert (Hka : k * a < K).
  { apply Rlt_le_trans with (k * a + a); [lra|]. apply Rlt_le. apply (lt_div_iff _ _ _) in M11; lra. }
  specialize (B1 a). specialize (B2 a). specialize (B3 a). specialize (B4 a). specialize (B5 a). specialize (B6 a).
  specialize (B7 a). specialize (B8 a). specialize (B9 a). rewrite AA in B1, B2, B3, B4, B5, B6, B7, B8, B9.
  specialize (B1 M1). specialize (B2 M2). specialize (B3 M3). specialize (B4 M4). specialize (B5 M5). specialize (B6 M6).
  specialize (B7 M7). specialize (B8 M8). specialize (B9 M9).
  apply Rabs_def2 in B1, B2, B3, B4.
  do 5 eexists. split; [apply thin_eval; lra|].
  split; [|split; [|split; [|split]]].
  - replace (lam + 2 * G - F11 a - (lam + 2 * G)) with (- (F11 a - 0)) by ring. rewrite Rabs_Ropp. exact B9.
  - match goal with |- Rabs (?x - ?y - (?x - ?z)) < _ => replace (x - y - (x - z)) with (- (y - z)) by ring end. rewrite Rabs_Ropp. exact B5.
  - match goal with |- Rabs (?x - ?y - (?x - ?z)) < _ => replace (x - y - (x - z)) with (- (y - z)) by ring end. rewrite Rabs_Ropp. exact B6.
  - match goal with |- Rabs (?x - ?y - (?x - ?z)) < _ => replace (x - y - (x - z)) with (- (y - z)) by ring end. rewrite Rabs_Ropp. exact B7.
  - replace (G - F66 a - G) with (- (F66 a - 0)) by ring. rewrite Rabs_Ropp. exact B8.
Qed.
End T.
Lemma hudson_thin m K G k e : 0 < K -> 0 < G -> 0 <= k -> forall al, 0 < al ->
  EM_hudson m (Fin K) (Fin G) (Fin (k * al)) (Fin 0) (Fin al) (Fin e) 1 3 =
  EM_hudson m (Fin K) (Fin G) (Fin (k * 1)) (Fin 0) (Fin 1) (Fin e) 1 3.
Proof.
  intros HK HG Hk al Ha. rewrite !hudson_eval; try (left; reflexivity); try (unfold host; repeat split; try lra; apply Rmult_le_pos; lra).
  replace (K - 2 * G / 3) with (K - 2/3 * G) by field. cbn [Z.eqb Pos.eqb]. 
  destruct (F_0 K G k 1 HK HG Hk al Ha) as (A & _ & B & _). destruct (F_0 K G k 1 HK HG Hk 1 ltac:(lra)) as (A' & _ & B' & _).
  rewrite A in A'. rewrite B in B'. set (lam := K - 2/3 * G) in *.
  assert (L2 : 0 < lam + 2 * G) by (unfold lam; lra).
  assert (E1 : penny_U1 lam G 0 al = penny_U1 lam G 0 1) by (apply (Rmult_eq_reg_l (G * 1)); [exact B'|lra]).
  assert (E3 : penny_U3 lam G (k * al) 0 al = penny_U3 lam G (k * 1) 0 1).
  { apply (Rmult_eq_reg_l ((lam + 2*G)^2 * 1 / G)).
    - transitivity ((lam + 2 * G) ^ 2 * 1 * penny_U3 lam G (k * al) 0 al / G); [field; lra|]. rewrite A'. field. lra.
    - apply Rgt_not_eq. apply Rdiv_lt_0_compat; [|lra]. assert (0 < (lam + 2 * G)^2) by (apply pow_lt; lra). lra. }
  rewrite E1, E3. reflexivity.
Qed.
