(** * L_ContFns3: continuity of the matrix modulus where the shale vanishes, and formulas that jump. *)
From Verif Require Import Fl RealLemmas M_Utils M_EM M_Anis M_Fluid M_GM M_Perm M_Emp M_BW M_AVO M_QI M_Array M_ArrayFns Spec16 L_ArrayFns Spec21 L_Cont L_ContProg L_ContFns L_ContFns2.
Open Scope R_scope.

Lemma fadd_0_l x : fadd (Fin 0) x = x.
Proof. destruct x; cbn; auto. f_equal. ring. Qed.
Lemma cont_QI_matrix_modulus m : continuous_on (fun l => match l with [vsh; phi_c; phi_0; M_sh; M_g; M_c] => vsh = 0 -> M_sh <> 0 /\ phi_0 <> 1 | _ => False end)
  (fun l => match l with [vsh; phi_c; phi_0; M_sh; M_g; M_c] => out1 (QI_matrix_modulus m vsh phi_c phi_0 M_sh M_g M_c) | _ => Unknown end).
Proof.
  apply (regs_continuous m 6 arr_QI_matrix_modulus); [fn_eq QI_matrix_modulus_arr|fn_ne 6|reflexivity|].
  intros xs ys D L _. do 6 (destruct xs as [|? xs]; [discriminate L|]). destruct xs; [|discriminate L]. unfold arr_QI_matrix_modulus. cbn [map].
  destruct (Req_dec r 0) as [->|N].
  - destruct (D eq_refl) as [D1 D2]. assert (D3 : 1 - r1 <> 0) by lra. rl.
    eapply regs_if; [reflexivity|reflexivity|reflexivity|reflexivity|rl|rl|]. intros _.
    cbn [run ev nth app sem2]. rewrite (fdiv_fin NumPy 1 r2) by exact D1. rewrite !fmul_fin.
    replace (0 / (1 - r1) * r2) with 0 by (field; auto). replace (0 / (1 - r1) * (1 / r2)) with 0 by (field; auto). rewrite !fadd_0_l. reflexivity.
  - rl. eapply regs_if; [reflexivity|reflexivity|reflexivity|reflexivity|rl|rl|]. intros E. contradiction.
Qed.

(** ** Formulas that jump *)
Lemma robust_GM_ThomasStieber : robust_fn (fun l => match l with [phi_sand; phi_sh; vsh] => out2 (GM_ThomasStieber phi_sand phi_sh vsh) | _ => Unknown end).
Proof.
  intros xs ys _ E. exists 1. split; [lra|]. intros xs' W. assert (L : length xs = length xs') by (clear E; induction W; cbn; auto). do 3 (destruct xs as [|? xs]; [discriminate E|]). destruct xs; [|discriminate E].
  do 3 (destruct xs' as [|? xs']; [discriminate L|]). destruct xs'; [|discriminate L]. cbn [map]. unfold GM_ThomasStieber, fmaximum. cbn. eexists [_; _]. reflexivity.
Qed.
Lemma within_refl_but_last d a b c x y : 0 < d -> Rabs (y - x) < d -> within d [a; b; c; x] [a; b; c; y].
Proof. intros D H. repeat constructor; auto; unfold Rminus; rewrite Rplus_opp_r, Rabs_R0; exact D. Qed.
Lemma jump_Brie m : ~ continuous_fn (fun l => match l with [Kw; Kgas; Sw; e] => out1 (Fluid_Brie m Kw Kgas Sw e) | _ => Unknown end).
Proof.
  intros C. specialize (C [2; 1; 0; 0] [2] I).
  assert (E : forall e, 0 <= e -> out1 (Fluid_Brie m (Fin 2) (Fin 1) (Fin 0) (Fin e)) = Ret (map Fin [if Req_EM_T e 0 then 2 else 1])).
  { intros e He. unfold Fluid_Brie, fpow. destruct (Rlt_dec 0 0); [lra|]. destruct (Req_EM_T 0 0); [|lra]. destruct (Req_EM_T e 0); cbn; [|destruct (Rlt_dec 0 e); [|lra]; cbn]; do 3 f_equal; ring. }
  destruct (C ltac:(cbn [map]; rewrite E by lra; destruct (Req_EM_T 0 0); [reflexivity|lra]) (1/2) ltac:(lra)) as (d & D & K).
  specialize (K [2; 1; 0; d / 2] [1]). assert (W : within (1/2) [2] [1]).
  { apply K; [apply within_refl_but_last; [exact D|]; rewrite Rminus_0_r, Rabs_pos_eq; lra|]. cbn [map]. rewrite E by lra. destruct (Req_EM_T (d/2) 0); [lra|reflexivity]. }
  inversion W as [|? ? ? ? A _]. replace (1 - 2) with (-(1)) in A by ring. rewrite Rabs_Ropp, Rabs_R1 in A. lra.
Qed.
(** With no shale the matrix of quartz and cement of modulus 1 has modulus 1; with ever so little of a shale of modulus 0 the Reuss
    average is 0, and the Hill average falls to one half. *)
Lemma jump_matrix m : ~ continuous_fn (fun l => match l with [vsh; phi_c; phi_0; M_sh; M_g; M_c] => out1 (QI_matrix_modulus m vsh phi_c phi_0 M_sh M_g M_c) | _ => Unknown end).
Proof.
  intros C. specialize (C [0; 0; 0; 0; 1; 1] [1] I).
  assert (E : forall v, 0 <= v -> out1 (QI_matrix_modulus m (Fin v) (Fin 0) (Fin 0) (Fin 0) (Fin 1) (Fin 1)) = Ret (map Fin [if Req_EM_T v 0 then 1 else (1 - v) / 2])).
  { intros v Hv. unfold QI_matrix_modulus, QI_fractions. cbn [fsub]. rewrite !fdiv_fin by lra. cbn [bind call feqb fcmp].
    rewrite fdiv_fin by lra. cbn [bind call]. replace ((1 - 0 - v) / (1 - 0)) with (1 - v) by field. replace (v / (1 - 0)) with v by field. replace ((0 - 0) / (1 - 0)) with 0 by field.
    unfold EM_VRH, fdot. cbn [length Nat.eqb negb fmap2 map]. rewrite !(fdiv_fin NumPy 1 1) by lra. replace (1 / 1) with 1 by field. unfold fsum. cbn [fold_right fmul fadd].
    unfold Reqb. destruct (Req_EM_T v 0) as [->|N]; cbn [bind call].
    - rewrite fdiv_fin by lra. cbn [bind call fmul fadd out1 rets map]. cbn. do 3 f_equal. field.
    - rewrite fdiv_zero_np by lra. cbn [fmul]. destruct (Req_EM_T v 0); [lra|]. cbn [fadd fdiv bind call fmul]. cbn. do 3 f_equal. field. }
  destruct (C ltac:(cbn [map]; rewrite E by lra; destruct (Req_EM_T 0 0); [reflexivity|lra]) (1/2) ltac:(lra)) as (d & D & K).
  specialize (K [d / 2; 0; 0; 0; 1; 1] [(1 - d / 2) / 2]). assert (W : within (1/2) [1] [(1 - d / 2) / 2]).
  { apply K; [repeat constructor; try (unfold Rminus; rewrite Rplus_opp_r, Rabs_R0; exact D); rewrite Rminus_0_r, Rabs_pos_eq; lra|]. cbn [map]. rewrite E by lra. destruct (Req_EM_T (d/2) 0); [lra|reflexivity]. }
  inversion W as [|? ? ? ? A _]. apply Rabs_def2 in A. lra.
Qed.
