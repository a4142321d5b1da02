(** * L_RoundFns: rounding errors of some functions of rockphypy (C81). *)
From Verif Require Import Fl RealLemmas M_Utils M_EM M_Fluid M_GM M_Perm M_Array M_ArrayFns M_Round Spec16 Spec18
  L_ArrayFns L_Round L_RoundRel.
Open Scope R_scope.

Ltac accur E :=
  intros; match goal with H : 0 <= ?u <= / 1000000, F : fprog ?u ?p ?xs ?ys |- accurate ?u ?o _ ?ys =>
    eapply (accp_accurate _ u H xs p _ _ o ys); [unfold p|symmetry; apply E| |exact F] end.
Ltac side :=
  lazymatch goal with
  | |- _ <> 0 => solve [pos | apply Rlt_not_eq; pos]
  | |- 0 <= _ => solve [pos]
  | |- acc _ _ _ _ _ _ => idtac
  | |- _ => idtac
  end.
Ltac plet := cbn [map app]; eapply accp_let; [eassumption|ac; side|].
Ltac pretc := cbn [map app]; repeat (eapply accp_cons; [ac; side|]); try apply accp_nil.
Ltac inr := rewrite INR_IZR_INZ; match goal with |- context [Z.of_nat ?n] => let z := eval vm_compute in (Z.of_nat n) in change (Z.of_nat n) with z end.
Ltac cnt := repeat (apply Forall2_cons; [simpl; lia|]); apply Forall2_nil.

Section Fns.
Variables (m : mode) (u : R).
Hypothesis Hu : 0 <= u <= / 1000000.
Lemma V_acc K G rho ys : 0 < K -> 0 < G -> 0 < rho ->
  fprog u arr_utils_V [K; G; rho] ys -> accurate u (out2 (utils_V m #K #G #rho)%fl) [8; 5]%nat ys.
Proof.
  accur utils_V_arr.
  - plet. intros t1 T1. plet. intros t2 T2. pretc.
  - cnt.
Qed.
Lemma M_from_V_acc den vp vs ys : 0 < den -> 0 < vp -> 0 < vs -> 8 * vs ^ 2 <= 3 * vp ^ 2 ->
  fprog u arr_utils_M_from_V [den; vp; vs] ys -> accurate u (out2 (utils_M_from_V m #den #vp #vs)%fl) [12; 5]%nat ys.
Proof.
  accur utils_M_from_V_arr.
  - plet.
    + eapply (acc_subp m u Hu 2); [ac; side|ac; side|split; [pos|nra]|simpl; nra|lia|simpl; lia].
    + intros t1 T1. plet. intros t2 T2. plet. intros t3 T3. plet. intros t4 T4. pretc.
  - cnt.
Qed.
Lemma lame_acc K G ys : 0 < K -> 0 < G -> 4 * G <= 3 * K ->
  fprog u arr_utils_lame [K; G] ys -> accurate u (out1 (utils_lame m #K #G)%fl) [5]%nat ys.
Proof.
  accur utils_lame_arr.
  - plet.
    + eapply (acc_subp m u Hu 2); [ac; side|ac; side|split; [pos|nra]|simpl; nra|lia|simpl; lia].
    + intros t1 T1. pretc.
  - cnt.
Qed.
Lemma poi_acc K G ys : 0 < K -> 0 < G -> 4 * G <= 5 * K ->
  fprog u arr_utils_poi [K; G] ys -> accurate u (out1 (utils_poi m #K #G)%fl) [17]%nat ys.
Proof.
  accur utils_poi_arr.
  - plet.
    + eapply (acc_subp m u Hu 6); [ac; side|ac; side|split; [pos|nra]|simpl; nra|lia|simpl; lia].
    + intros t1 T1. pretc.
  - cnt.
Qed.
Lemma crack_por_acc crd alpha ys : fprog u arr_utils_crack_por [crd; alpha] ys -> accurate u (out1 (utils_crack_por m #crd #alpha)%fl) [6]%nat ys.
Proof.
  accur utils_crack_por_arr.
  - plet. intros t1 T1. pretc.
  - cnt.
Qed.
Lemma HS_lower_acc f K1 K2 G1 G2 ys : 0 <= f <= 1 -> 0 < K2 < K1 -> 0 < G2 < G1 ->
  fprog u arr_EM_HS_lower [f; K1; K2; G1; G2] ys -> accurate u (out2 (EM_HS m #f #K1 #K2 #G1 #G2 "lower")%fl) [13; 20]%nat ys.
Proof.
  accur EM_HS_lower_arr.
  - plet.
    all: try (intros t1 T1; plet).
    all: try (intros t2 T2; plet).
    all: try (intros t3 T3; pretc).
  - cnt.
Qed.
(** The part common to Gassmann's equation and the velocities of the saturated rock. *)
Lemma Gassmann_A vs e1 e2 Kd Km : 0 < Kd -> 0 < Km -> 4 * Kd <= 3 * Km -> acc m u vs e1 0 Kd -> acc m u vs e2 0 Km ->
  acc m u vs (EOp1 (OPown 2) (EOp2 OSub (ELit 1) (EOp2 ODiv e1 e2))) 11 ((1 - Kd / Km) ^ 2).
Proof.
  intros. assert (Q : 0 < Kd / Km <= 3 / 4) by (split; [pos|apply div_le_iff; lra]).
  apply (acc_pown m u Hu _ _ 5 _ 2).
  apply (acc_subp m u Hu 4 _ _ _ 0 1); [apply (acc_int m u Hu _ 1); vm_compute; discriminate| |lra|simpl; lra|lia|simpl; lia].
  apply (acc_div m u Hu _ _ _ 0 0); auto. lra.
Qed.
Lemma Gassmann_B vs e1 e2 e3 e4 Kd Km Kf phi : 0 < Kd -> 0 < Kf <= Km -> 0 <= phi <= 1 -> 4 * Kd <= 3 * Km ->
  acc m u vs e1 0 Kd -> acc m u vs e2 0 Km -> acc m u vs e3 0 Kf -> acc m u vs e4 0 phi ->
  acc m u vs (EOp2 OSub (EOp2 OAdd (EOp2 ODiv e4 e3) (EOp2 ODiv (EOp2 OSub (ELit 1) e4) e2)) (EOp2 ODiv e1 (EOp1 (OPown 2) e2))) 20
    (phi / Kf + (1 - phi) / Km - Kd / Km ^ 2) /\ 0 < phi / Kf + (1 - phi) / Km - Kd / Km ^ 2.
Proof.
  intros HK Hf Hp Hd H1 H2 H3 H4. assert (Pm : 0 < Km) by lra.
  assert (I : / Km <= phi / Kf + (1 - phi) / Km).
  { replace (/ Km) with (phi / Km + (1 - phi) / Km) by (field; lra).
    apply Rplus_le_compat_r. apply Rmult_le_compat_l; [lra|]. apply Rinv_le_contravar; lra. }
  assert (J : 0 < Kd / Km ^ 2 <= 3 / 4 * / Km).
  { split; [pos|]. apply div_le_iff; [pos|]. replace (3 / 4 * / Km * Km ^ 2) with (3 / 4 * Km) by (field; lra). lra. }
  assert (P : 0 < / Km) by pos. split; [|lra].
  apply (acc_subp m u Hu 4 _ _ _ 3 2); [| |lra|inr; lra|lia|simpl; lia].
  - apply (acc_add m u Hu _ _ _ 1 2).
    + apply (acc_div m u Hu _ _ _ 0 0); auto; lra.
    + apply (acc_div m u Hu _ _ _ 1 0); auto; [|lra].
      apply (acc_sub0 m u Hu); auto. apply (acc_int m u Hu _ 1); vm_compute; discriminate.
    + apply Rmult_le_pos; apply Rmult_le_pos; try lra; left; apply Rinv_0_lt_compat; lra.
  - apply (acc_div m u Hu _ _ _ 0 1); auto; [|apply pow_nonzero; lra]. apply (acc_pown m u Hu _ _ 0 _ 2); auto.
Qed.
Lemma Gassmann_acc Kd Gd Km Kf phi ys : 0 < Kd -> 0 < Kf <= Km -> 0 <= phi <= 1 -> 4 * Kd <= 3 * Km ->
  fprog u arr_Fluid_Gassmann [Kd; Gd; Km; Kf; phi] ys -> accurate u (out2 (Fluid_Gassmann m #Kd #Gd #Km #Kf #phi)%fl) [34; 1]%nat ys.
Proof.
  accur Fluid_Gassmann_arr.
  - cbn [map app]. eapply accp_let; [exact Hu|eapply (Gassmann_A _ _ _ Kd Km); try assumption; try lra; ac|]. intros t1 T1.
    cbn [app]. destruct (Gassmann_B [(Kd, Kd); (Gd, Gd); (Km, Km); (Kf, Kf); (phi, phi); ((1 - Kd / Km) ^ 2, (1 - Kd / Km) ^ 2 * t1)]
      (EVar 0) (EVar 2) (EVar 3) (EVar 4) Kd Km Kf phi) as (B & BP); try assumption; try ac.
    eapply accp_let; [exact Hu|exact B|]. intros t2 T2.
    set (b := phi / Kf + (1 - phi) / Km - Kd / Km ^ 2) in *.
    plet. intros t3 T3. plet. intros t4 T4. pretc.
  - cnt.
Qed.
Lemma vels_acc Kd Gd K0 D0 Kf Df phi ys :
  0 < Kd -> 0 < Gd -> 0 < Kf <= K0 -> 0 < D0 -> 0 < Df -> 0 <= phi <= 1 -> 4 * Kd <= 3 * K0 ->
  fprog u arr_Fluid_vels [Kd; Gd; K0; D0; Kf; Df; phi] ys ->
  accurate u (out3 (Fluid_vels m #Kd #Gd #K0 #D0 #Kf #Df #phi)%fl) [42; 7; 4]%nat ys.
Proof.
  accur Fluid_vels_arr.
  - plet. assert (RP : 0 < D0 * (1 - phi) + Df * phi).
    { destruct (Req_dec phi 0) as [->|]; [lra|]. apply Rplus_le_lt_0_compat; [apply Rmult_le_pos; lra|apply Rmult_lt_0_compat; lra]. }
    intros t1 T1. set (rho := D0 * (1 - phi) + Df * phi) in *. cbn [app].
    eapply accp_let; [exact Hu|eapply (Gassmann_A _ _ _ Kd K0); try assumption; try lra; ac|]. intros t2 T2.
    cbn [app]. match goal with |- accp _ _ ?vs _ _ =>
      destruct (Gassmann_B vs (EVar 0) (EVar 2) (EVar 4) (EVar 6) Kd K0 Kf phi) as (B & BP); try assumption; try ac end.
    eapply accp_let; [exact Hu|exact B|]. intros t3 T3.
    set (b := phi / Kf + (1 - phi) / K0 - Kd / K0 ^ 2) in *.
    plet. intros t4 T4. plet. intros t5 T5. plet. intros t6 T6. plet. intros t7 T7. pretc.
  - cnt.
Qed.
Lemma Kozeny_Carman_acc phi d ys : 0 < phi < 1 ->
  fprog u arr_Perm_Kozeny_Carman [phi; d] ys -> accurate u (out1 (Perm_Kozeny_Carman m #phi #d)%fl) [10]%nat ys.
Proof.
  accur Perm_Kozeny_Carman_arr.
  - plet. intros t1 T1. pretc.
  - cnt.
Qed.
Lemma Panda_Lake_acc d C S tau phi ys : 0 < C -> 0 < S -> 0 < tau -> 0 < phi < 1 ->
  fprog u arr_Perm_Panda_Lake [d; C; S; tau; phi] ys -> accurate u (out1 (Perm_Panda_Lake m #d #C #S #tau #phi)%fl) [29]%nat ys.
Proof.
  accur Perm_Panda_Lake_arr.
  - plet. intros t1 T1. pretc.
  - cnt.
Qed.
Lemma Fredrich_acc phi d b ys : 0 < phi < 1 -> 0 < d -> 0 < b ->
  fprog u arr_Perm_Fredrich [phi; d; b] ys -> accurate u (out1 (Perm_Fredrich m #phi #d #b)%fl) [18]%nat ys.
Proof.
  accur Perm_Fredrich_arr.
  - plet. intros t1 T1. plet. intros t2 T2. plet. intros t3 T3. pretc.
  - cnt.
Qed.
Lemma Geertsma_Smit_LF_acc Vp0 Vpinf freq phi rhofl kapa eta ys :
  0 < Vp0 -> 0 < Vpinf -> 0 < freq -> 0 < phi -> 0 < rhofl -> 0 < kapa -> 0 < eta ->
  fprog u arr_Fluid_Geertsma_Smit_LF [Vp0; Vpinf; freq; phi; rhofl; kapa; eta] ys ->
  accurate u (out1 (Fluid_Geertsma_Smit_LF m #Vp0 #Vpinf #freq #phi #rhofl #kapa #eta)%fl) [43]%nat ys.
Proof.
  accur Fluid_Geertsma_Smit_LF_arr.
  - plet. intros t1 T1. plet. intros t2 T2. plet. intros t3 T3. pretc.
  - cnt.
Qed.
Lemma cripor_acc K0 G0 phi phic ys : 0 <= phi -> 0 < phic -> 4 * phi <= 3 * phic ->
  fprog u arr_EM_cripor [K0; G0; phi; phic] ys -> accurate u (out2 (EM_cripor m #K0 #G0 #phi #phic)%fl) [7; 7]%nat ys.
Proof.
  accur EM_cripor_arr.
  - assert (Q : 0 <= phi / phic <= 3 / 4) by (split; [pos|apply div_le_iff; lra]).
    plet.
    { eapply (acc_subp m u Hu 4); [ac|ac; side|lra|simpl; lra|lia|simpl; lia]. }
    intros t1 T1. plet.
    { eapply (acc_subp m u Hu 4); [ac|ac; side|lra|simpl; lra|lia|simpl; lia]. }
    intros t2 T2. pretc.
  - cnt.
Qed.
(** Poisson's ratio. *)
Lemma nu_acc vs e1 e2 K G : 0 < K -> 0 < G -> 4 * G <= 5 * K -> acc m u vs e1 0 K -> acc m u vs e2 0 G ->
  acc m u vs (EOp2 ODiv (EOp2 OSub (EOp2 OMul (ELit 3) e1) (EOp2 OMul (ELit 2) e2)) (EOp2 OAdd (EOp2 OMul (ELit 6) e1) (EOp2 OMul (ELit 2) e2))) 16
    ((3 * K - 2 * G) / (6 * K + 2 * G)) /\ 0 < (3 * K - 2 * G) / (6 * K + 2 * G) <= / 2.
Proof.
  intros HK HG H H1 H2. split; [|split; [pos|apply div_le_iff; lra]].
  apply (acc_div m u Hu _ _ _ 13 2); [| |lra].
  - apply (acc_subp m u Hu 6 _ _ _ 1 1); [| |lra|simpl; lra|lia|simpl; lia].
    + apply (acc_mul m u Hu _ _ _ 0 0); auto. apply (acc_int m u Hu _ 3); vm_compute; discriminate.
    + apply (acc_mul m u Hu _ _ _ 0 0); auto. apply (acc_int m u Hu _ 2); vm_compute; discriminate.
  - apply (acc_add m u Hu _ _ _ 1 1).
    + apply (acc_mul m u Hu _ _ _ 0 0); auto. apply (acc_int m u Hu _ 6); vm_compute; discriminate.
    + apply (acc_mul m u Hu _ _ _ 0 0); auto. apply (acc_int m u Hu _ 2); vm_compute; discriminate.
    + pos.
Qed.
End Fns.
