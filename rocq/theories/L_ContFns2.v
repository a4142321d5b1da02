(** * L_ContFns2: continuity of the formulas with powers of a computed exponent and with tests. *)
From Verif Require Import Fl RealLemmas M_Utils M_EM M_Anis M_Fluid M_GM M_Perm M_Emp M_BW M_AVO M_QI M_Array M_ArrayFns Spec16 L_ArrayFns Spec21 L_Cont L_ContProg L_ContFns.
Open Scope R_scope.

Lemma regs_let_any m k env e p : reg m env e -> (forall v, regs m k (env ++ [v]) p) -> regs m k env (PLet e p).
Proof. intros A B. split; auto. Qed.
Lemma regs_let_eq m k env e p v : reg m env e -> ev m env e = Fin v -> regs m k (env ++ [Fin v]) p -> regs m k env (PLet e p).
Proof. intros A E B. split; [auto|rewrite E; auto]. Qed.
Lemma regs_ret m k env es : (forall e, In e es -> reg m env e) -> regs m k env (PRet es).
Proof. auto. Qed.
Ltac rg_go :=
  lazymatch goal with
  | |- _ /\ _ => split; rg_go
  | |- True => exact I
  | |- false = true -> _ => discriminate
  | |- true = true -> _ => intros _; first
      [ left; tame_lit | right; left; tame_lit
      | right; right; do 2 eexists; split; [reflexivity|split; [cbn [ev nth app sem1 sem2 fpown fadd fsub fmul]; reflexivity|solve [auto]]] ]
  end.
Ltac rg := cbn [reg is_pow]; rg_go.
Ltac rl :=
  lazymatch goal with
  | |- regs _ _ _ (PLet _ _) =>
      first [ eapply regs_let_eq; [rg|cbn [ev nth app sem1 sem2 fpown fadd fsub fmul]; rewrite fdiv_fin by assumption; reflexivity|cbn [app]; rl]
            | apply regs_let_any; [rg|let v := fresh "v" in intros v; cbn [app]; rl] ]
  | |- regs _ _ _ (PIf _ _ _ _ _) => idtac
  | |- regs _ _ _ (PRet _) => apply regs_ret; let e := fresh "e" in let H := fresh "H" in intros e H; cbn [In] in H; repeat (destruct H as [<-|H]; [rg|]); destruct H
  end.

Lemma regs_if m k env c e1 e2 p q a b : plain k e1 = true -> plain k e2 = true -> ev m env e1 = Fin a -> ev m env e2 = Fin b ->
  regs m k env p -> regs m k env q -> (a = b -> run m p env = run m q env) -> regs m k env (PIf c e1 e2 p q).
Proof.
  intros P1 P2 E1 E2 Rp Rq T. cbn [regs]. split; [exact P1|]. split; [exact P2|]. exists a, b. split; [exact E1|]. split; [exact E2|]. split; [|auto].
  intros _. destruct c; cbn; [destruct (Rltb a b)|destruct (Rleb a b)|destruct (Reqb a b)]; auto.
Qed.

Lemma cont_Fluid_Brie m : continuous_on (fun l => match l with [_; _; Sw; e] => Sw <> 0 \/ e <> 0 | _ => False end)
  (fun l => match l with [Kw; Kgas; Sw; e] => out1 (Fluid_Brie m Kw Kgas Sw e) | _ => Unknown end).
Proof.
  apply (regs_continuous m 4 arr_Fluid_Brie); [fn_eq Fluid_Brie_arr|fn_ne 4|reflexivity|].
  intros xs ys D L _. lst1 xs L. unfold arr_Fluid_Brie. cbn [map]. rl.
Qed.
Lemma cont_Emp_krief m : continuous_fn (fun l => match l with [phi; Kg; Gg] => out3 (Emp_krief m phi Kg Gg) | _ => Unknown end).
Proof.
  apply (regs_continuous m 3 arr_Emp_krief); [fn_eq Emp_krief_arr|fn_ne 3|reflexivity|].
  intros xs ys _ L E. lst1 xs L. destruct (Req_dec (1 - r) 0) as [Z|N].
  - exfalso. cbn [map] in E. rewrite <- Emp_krief_arr in E. unfold Emp_krief in E. cbn [fsub] in E. rewrite Z in E. destruct m.
    + rewrite fdiv_zero_py_fin in E. cbn in E. destruct (Req_EM_T 0 0); discriminate.
    + rewrite fdiv_zero_np in E by lra. cbn in E. destruct (Req_EM_T 3 0); cbn in E; destruct ys; discriminate.
  - unfold arr_Emp_krief. cbn [map]. apply regs_let_any; [|intros v; cbn [app]; rl].
    cbn [reg is_pow]. repeat match goal with |- _ /\ _ => split end; try exact I; try discriminate.
    intros _. right; right. cbn [ev nth app sem2 fsub]. rewrite fdiv_fin by exact N. do 2 eexists. split; [reflexivity|]. split; [reflexivity|auto].
Qed.
(** Contact cement: the grain is a solid (3 K0 + G0 and G0 nonzero) and the cement has a shear modulus. *)
Lemma cement_ok_facts K0 G0 Gc : cement_ok K0 G0 Gc -> 6 * K0 + 2 * G0 <> 0 /\ PI * G0 <> 0 /\ Gc / (PI * G0) <> 0.
Proof.
  intros (A & B & C). assert (P := PI_RGT_0). assert (N : PI * G0 <> 0) by (apply Rmult_integral_contrapositive; split; lra). repeat split; auto; [lra|].
  apply Rmult_integral_contrapositive; split; [exact C|]. apply Rinv_neq_0_compat, N.
Qed.
Ltac cem D := apply cement_ok_facts in D as (? & ? & ?).
Lemma cont_GM_contactcement_1 m : continuous_on (fun l => match l with [K0; G0; Kc; Gc; phi; phic; Cn] => cement_ok K0 G0 Gc | _ => False end)
  (fun l => match l with [K0; G0; Kc; Gc; phi; phic; Cn] => out2 (GM_contactcement m K0 G0 Kc Gc phi phic Cn 1) | _ => Unknown end).
Proof.
  apply (regs_continuous m 7 arr_GM_contactcement_1); [fn_eq GM_contactcement_1_arr|fn_ne 7|reflexivity|].
  intros xs ys D L _. lst1 xs L. cem D. unfold arr_GM_contactcement_1. cbn [map]. rl.
Qed.
Lemma cont_GM_contactcement_2 m : continuous_on (fun l => match l with [K0; G0; Kc; Gc; phi; phic; Cn] => cement_ok K0 G0 Gc | _ => False end)
  (fun l => match l with [K0; G0; Kc; Gc; phi; phic; Cn] => out2 (GM_contactcement m K0 G0 Kc Gc phi phic Cn 2) | _ => Unknown end).
Proof.
  apply (regs_continuous m 7 arr_GM_contactcement_2); [fn_eq GM_contactcement_2_arr|fn_ne 7|reflexivity|].
  intros xs ys D L _. lst1 xs L. cem D. unfold arr_GM_contactcement_2. cbn [map]. rl.
Qed.
Lemma cont_GM_constantcement_1 m : continuous_on (fun l => match l with [phi_b; K0; G0; Kc; Gc; phi; phic; Cn] => cement_ok K0 G0 Gc | _ => False end)
  (fun l => match l with [phi_b; K0; G0; Kc; Gc; phi; phic; Cn] => out2 (GM_constantcement m phi_b K0 G0 Kc Gc phi phic Cn 1) | _ => Unknown end).
Proof.
  apply (regs_continuous m 8 arr_GM_constantcement_1); [fn_eq GM_constantcement_1_arr|fn_ne 8|reflexivity|].
  intros xs ys D L _. lst1 xs L. cem D. unfold arr_GM_constantcement_1. cbn [map]. rl.
Qed.
Lemma cont_GM_constantcement_2 m : continuous_on (fun l => match l with [phi_b; K0; G0; Kc; Gc; phi; phic; Cn] => cement_ok K0 G0 Gc | _ => False end)
  (fun l => match l with [phi_b; K0; G0; Kc; Gc; phi; phic; Cn] => out2 (GM_constantcement m phi_b K0 G0 Kc Gc phi phic Cn 2) | _ => Unknown end).
Proof.
  apply (regs_continuous m 8 arr_GM_constantcement_2); [fn_eq GM_constantcement_2_arr|fn_ne 8|reflexivity|].
  intros xs ys D L _. lst1 xs L. cem D. unfold arr_GM_constantcement_2. cbn [map]. rl.
Qed.
Lemma cont_GM_MUHS_1 m : continuous_on (fun l => match l with [K0; G0; Kc; Gc; phi; phi_b; phic; Cn] => cement_ok K0 G0 Gc | _ => False end)
  (fun l => match l with [K0; G0; Kc; Gc; phi; phi_b; phic; Cn] => out2 (GM_MUHS m K0 G0 Kc Gc phi phi_b phic Cn 1) | _ => Unknown end).
Proof.
  apply (regs_continuous m 8 arr_GM_MUHS_1); [fn_eq GM_MUHS_1_arr|fn_ne 8|reflexivity|].
  intros xs ys D L _. lst1 xs L. cem D. unfold arr_GM_MUHS_1. cbn [map]. rl.
Qed.
Lemma cont_GM_MUHS_2 m : continuous_on (fun l => match l with [K0; G0; Kc; Gc; phi; phi_b; phic; Cn] => cement_ok K0 G0 Gc | _ => False end)
  (fun l => match l with [K0; G0; Kc; Gc; phi; phi_b; phic; Cn] => out2 (GM_MUHS m K0 G0 Kc Gc phi phi_b phic Cn 2) | _ => Unknown end).
Proof.
  apply (regs_continuous m 8 arr_GM_MUHS_2); [fn_eq GM_MUHS_2_arr|fn_ne 8|reflexivity|].
  intros xs ys D L _. lst1 xs L. cem D. unfold arr_GM_MUHS_2. cbn [map]. rl.
Qed.

(** ** Patchy cement: the two cement models meet at the threshold *)
(** At the cement threshold the contact cement model gives positive moduli (for a porosity that is not zero). *)
Lemma MUHS_threshold m K0 G0 Kc Gc phic v Cn scheme Kb Gb : 0 < K0 -> 0 < G0 -> phic <> v -> 0 < Kb -> 0 < Gb ->
  GM_contactcement m (Fin K0) (Fin G0) (Fin Kc) (Fin Gc) (Fin phic - Fin v)%fl (Fin phic) (Fin Cn) scheme = Ret (Fin Kb, Fin Gb) ->
  GM_MUHS m (Fin K0) (Fin G0) (Fin Kc) (Fin Gc) (Fin phic - Fin v)%fl (Fin phic - Fin v)%fl (Fin phic) (Fin Cn) scheme = Ret (Fin Kb, Fin Gb).
Proof.
  intros PK PG N PKb PGb E. unfold GM_MUHS. rewrite E, call_ret. cbn [fsub]. assert (N1 : phic - v <> 0) by lra.
  set (tmp := G0 / 6 * ((9 * K0 + 8 * G0) / (K0 + 2 * G0))).
  assert (P : 0 < tmp). { unfold tmp. apply Rmult_lt_0_compat; [lra|]. apply Rdiv_lt_0_compat; lra. }
  assert (D1 : (phic - v) / (phic - v) = 1) by (field; exact N1).
  rewrite (fdiv_fin _ (phic - v) (phic - v)) by exact N1. rewrite D1.
  rewrite (fdiv_fin m (-4) 3), (fdiv_fin m 4 3) by lra. rewrite !fmul_fin, !fadd_fin. rewrite (fdiv_fin m 1 (Kb + 4 / 3 * G0)) by lra.
  replace (1 - 1) with 0 by ring. rewrite (fdiv_fin m 0 (K0 + 4 / 3 * G0)) by lra. rewrite fadd_fin.
  assert (S1 : 1 / (Kb + 4 / 3 * G0) + 0 / (K0 + 4 / 3 * G0) = / (Kb + 4 / 3 * G0)) by (field; lra). rewrite S1.
  rewrite fdiv_fin by (apply Rinv_neq_0_compat; lra). rewrite fadd_fin, bind_fin.
  rewrite (fdiv_fin m G0 6), (fdiv_fin m (9 * K0 + 8 * G0)) by lra. rewrite fmul_fin, bind_fin. fold tmp.
  rewrite !fadd_fin. rewrite (fdiv_fin m 1 (Gb + tmp)), (fdiv_fin m 0 (G0 + tmp)) by lra. rewrite fadd_fin.
  assert (S2 : 1 / (Gb + tmp) + 0 / (G0 + tmp) = / (Gb + tmp)) by (field; lra). rewrite S2.
  rewrite fdiv_fin by (apply Rinv_neq_0_compat; lra). rewrite fneg_fin, fadd_fin, bind_fin.
  do 2 f_equal; f_equal; [field|field]; lra.
Qed.
Lemma cont_GM_pcm_stiff_1 m : continuous_on (fun l => match l with [f; sigma; K0; G0; phi; phic; v_cem; v_ci; Kc; Gc; Cn; f_] => cement_ok K0 G0 Gc /\ (v_cem = v_ci -> threshold_ok m K0 G0 Kc Gc phic v_ci Cn 1) | _ => False end)
  (fun l => match l with [f; sigma; K0; G0; phi; phic; v_cem; v_ci; Kc; Gc; Cn; f_] => out2 (GM_pcm m f sigma K0 G0 phi phic v_cem v_ci Kc Gc Cn "stiff" 1 f_) | _ => Unknown end).
Proof.
  apply (regs_continuous m 12 arr_GM_pcm_stiff_1); [fn_eq GM_pcm_stiff_1_arr|fn_ne 12|reflexivity|].
  intros xs ys D0 L _. do 12 (destruct xs as [|? xs]; [discriminate L|]). destruct xs; [|discriminate L]. destruct D0 as (D & TH). cem D. unfold arr_GM_pcm_stiff_1. cbn [map]. rl.
  match goal with |- regs _ _ [Fin ?f; Fin ?sigma; Fin ?K0; Fin ?G0; Fin ?phi; Fin ?phic; Fin ?v_cem; Fin ?v_ci; Fin ?Kc; Fin ?Gc; Fin ?Cn; Fin ?f_; _; _; ?Kunc; ?Gunc] _ =>
    eapply regs_if; [reflexivity|reflexivity|reflexivity|reflexivity|rl|rl|]; intros EV; destruct (TH EV) as (PK & PG & N & Kb & Gb & E & PKb & PGb); subst v_cem;
    transitivity (out2 (call! (Kcem, Gcem) := GM_contactcement m (Fin K0) (Fin G0) (Fin Kc) (Fin Gc) (Fin phic - Fin v_ci)%fl (Fin phic) (Fin Cn) 1 in call! (Kp, Gp) := GM_pcm_stiff m (Fin f) Kunc Gunc Kcem Gcem in GM_pcm_final m Kp Gp (Fin K0) (Fin G0) (Fin phi) (Fin phic))); [symmetry; unfold out2; unf; fn|];
    transitivity (out2 (call! (Kcem, Gcem) := GM_MUHS m (Fin K0) (Fin G0) (Fin Kc) (Fin Gc) (Fin phic - Fin v_ci)%fl (Fin phic - Fin v_ci)%fl (Fin phic) (Fin Cn) 1 in call! (Kp, Gp) := GM_pcm_stiff m (Fin f) Kunc Gunc Kcem Gcem in GM_pcm_final m Kp Gp (Fin K0) (Fin G0) (Fin phi) (Fin phic))); [|unfold out2; unf; fn];
    rewrite E, (MUHS_threshold m K0 G0 Kc Gc phic v_ci Cn 1 Kb Gb); auto
  end.
Qed.
Lemma cont_GM_pcm_stiff_2 m : continuous_on (fun l => match l with [f; sigma; K0; G0; phi; phic; v_cem; v_ci; Kc; Gc; Cn; f_] => cement_ok K0 G0 Gc /\ (v_cem = v_ci -> threshold_ok m K0 G0 Kc Gc phic v_ci Cn 2) | _ => False end)
  (fun l => match l with [f; sigma; K0; G0; phi; phic; v_cem; v_ci; Kc; Gc; Cn; f_] => out2 (GM_pcm m f sigma K0 G0 phi phic v_cem v_ci Kc Gc Cn "stiff" 2 f_) | _ => Unknown end).
Proof.
  apply (regs_continuous m 12 arr_GM_pcm_stiff_2); [fn_eq GM_pcm_stiff_2_arr|fn_ne 12|reflexivity|].
  intros xs ys D0 L _. do 12 (destruct xs as [|? xs]; [discriminate L|]). destruct xs; [|discriminate L]. destruct D0 as (D & TH). cem D. unfold arr_GM_pcm_stiff_2. cbn [map]. rl.
  match goal with |- regs _ _ [Fin ?f; Fin ?sigma; Fin ?K0; Fin ?G0; Fin ?phi; Fin ?phic; Fin ?v_cem; Fin ?v_ci; Fin ?Kc; Fin ?Gc; Fin ?Cn; Fin ?f_; _; _; ?Kunc; ?Gunc] _ =>
    eapply regs_if; [reflexivity|reflexivity|reflexivity|reflexivity|rl|rl|]; intros EV; destruct (TH EV) as (PK & PG & N & Kb & Gb & E & PKb & PGb); subst v_cem;
    transitivity (out2 (call! (Kcem, Gcem) := GM_contactcement m (Fin K0) (Fin G0) (Fin Kc) (Fin Gc) (Fin phic - Fin v_ci)%fl (Fin phic) (Fin Cn) 2 in call! (Kp, Gp) := GM_pcm_stiff m (Fin f) Kunc Gunc Kcem Gcem in GM_pcm_final m Kp Gp (Fin K0) (Fin G0) (Fin phi) (Fin phic))); [symmetry; unfold out2; unf; fn|];
    transitivity (out2 (call! (Kcem, Gcem) := GM_MUHS m (Fin K0) (Fin G0) (Fin Kc) (Fin Gc) (Fin phic - Fin v_ci)%fl (Fin phic - Fin v_ci)%fl (Fin phic) (Fin Cn) 2 in call! (Kp, Gp) := GM_pcm_stiff m (Fin f) Kunc Gunc Kcem Gcem in GM_pcm_final m Kp Gp (Fin K0) (Fin G0) (Fin phi) (Fin phic))); [|unfold out2; unf; fn];
    rewrite E, (MUHS_threshold m K0 G0 Kc Gc phic v_ci Cn 2 Kb Gb); auto
  end.
Qed.
Lemma cont_GM_pcm_soft_1 m : continuous_on (fun l => match l with [f; sigma; K0; G0; phi; phic; v_cem; v_ci; Kc; Gc; Cn; f_] => cement_ok K0 G0 Gc /\ (v_cem = v_ci -> threshold_ok m K0 G0 Kc Gc phic v_ci Cn 1) | _ => False end)
  (fun l => match l with [f; sigma; K0; G0; phi; phic; v_cem; v_ci; Kc; Gc; Cn; f_] => out2 (GM_pcm m f sigma K0 G0 phi phic v_cem v_ci Kc Gc Cn "soft" 1 f_) | _ => Unknown end).
Proof.
  apply (regs_continuous m 12 arr_GM_pcm_soft_1); [fn_eq GM_pcm_soft_1_arr|fn_ne 12|reflexivity|].
  intros xs ys D0 L _. do 12 (destruct xs as [|? xs]; [discriminate L|]). destruct xs; [|discriminate L]. destruct D0 as (D & TH). cem D. unfold arr_GM_pcm_soft_1. cbn [map]. rl.
  match goal with |- regs _ _ [Fin ?f; Fin ?sigma; Fin ?K0; Fin ?G0; Fin ?phi; Fin ?phic; Fin ?v_cem; Fin ?v_ci; Fin ?Kc; Fin ?Gc; Fin ?Cn; Fin ?f_; _; _; ?Kunc; ?Gunc] _ =>
    eapply regs_if; [reflexivity|reflexivity|reflexivity|reflexivity|rl|rl|]; intros EV; destruct (TH EV) as (PK & PG & N & Kb & Gb & E & PKb & PGb); subst v_cem;
    transitivity (out2 (call! (Kcem, Gcem) := GM_contactcement m (Fin K0) (Fin G0) (Fin Kc) (Fin Gc) (Fin phic - Fin v_ci)%fl (Fin phic) (Fin Cn) 1 in call! (Kp, Gp) := GM_pcm_soft m (Fin f) Kunc Gunc Kcem Gcem in GM_pcm_final m Kp Gp (Fin K0) (Fin G0) (Fin phi) (Fin phic))); [symmetry; unfold out2; unf; fn|];
    transitivity (out2 (call! (Kcem, Gcem) := GM_MUHS m (Fin K0) (Fin G0) (Fin Kc) (Fin Gc) (Fin phic - Fin v_ci)%fl (Fin phic - Fin v_ci)%fl (Fin phic) (Fin Cn) 1 in call! (Kp, Gp) := GM_pcm_soft m (Fin f) Kunc Gunc Kcem Gcem in GM_pcm_final m Kp Gp (Fin K0) (Fin G0) (Fin phi) (Fin phic))); [|unfold out2; unf; fn];
    rewrite E, (MUHS_threshold m K0 G0 Kc Gc phic v_ci Cn 1 Kb Gb); auto
  end.
Qed.
Lemma cont_GM_pcm_soft_2 m : continuous_on (fun l => match l with [f; sigma; K0; G0; phi; phic; v_cem; v_ci; Kc; Gc; Cn; f_] => cement_ok K0 G0 Gc /\ (v_cem = v_ci -> threshold_ok m K0 G0 Kc Gc phic v_ci Cn 2) | _ => False end)
  (fun l => match l with [f; sigma; K0; G0; phi; phic; v_cem; v_ci; Kc; Gc; Cn; f_] => out2 (GM_pcm m f sigma K0 G0 phi phic v_cem v_ci Kc Gc Cn "soft" 2 f_) | _ => Unknown end).
Proof.
  apply (regs_continuous m 12 arr_GM_pcm_soft_2); [fn_eq GM_pcm_soft_2_arr|fn_ne 12|reflexivity|].
  intros xs ys D0 L _. do 12 (destruct xs as [|? xs]; [discriminate L|]). destruct xs; [|discriminate L]. destruct D0 as (D & TH). cem D. unfold arr_GM_pcm_soft_2. cbn [map]. rl.
  match goal with |- regs _ _ [Fin ?f; Fin ?sigma; Fin ?K0; Fin ?G0; Fin ?phi; Fin ?phic; Fin ?v_cem; Fin ?v_ci; Fin ?Kc; Fin ?Gc; Fin ?Cn; Fin ?f_; _; _; ?Kunc; ?Gunc] _ =>
    eapply regs_if; [reflexivity|reflexivity|reflexivity|reflexivity|rl|rl|]; intros EV; destruct (TH EV) as (PK & PG & N & Kb & Gb & E & PKb & PGb); subst v_cem;
    transitivity (out2 (call! (Kcem, Gcem) := GM_contactcement m (Fin K0) (Fin G0) (Fin Kc) (Fin Gc) (Fin phic - Fin v_ci)%fl (Fin phic) (Fin Cn) 2 in call! (Kp, Gp) := GM_pcm_soft m (Fin f) Kunc Gunc Kcem Gcem in GM_pcm_final m Kp Gp (Fin K0) (Fin G0) (Fin phi) (Fin phic))); [symmetry; unfold out2; unf; fn|];
    transitivity (out2 (call! (Kcem, Gcem) := GM_MUHS m (Fin K0) (Fin G0) (Fin Kc) (Fin Gc) (Fin phic - Fin v_ci)%fl (Fin phic - Fin v_ci)%fl (Fin phic) (Fin Cn) 2 in call! (Kp, Gp) := GM_pcm_soft m (Fin f) Kunc Gunc Kcem Gcem in GM_pcm_final m Kp Gp (Fin K0) (Fin G0) (Fin phi) (Fin phic))); [|unfold out2; unf; fn];
    rewrite E, (MUHS_threshold m K0 G0 Kc Gc phic v_ci Cn 2 Kb Gb); auto
  end.
Qed.
Lemma cont_GM_vpcm_1 m : continuous_on (fun l => match l with [alpha; f; sigma; K0; G0; phi; phic; v_cem; v_ci; Kc; Gc; Cn; f_] => cement_ok K0 G0 Gc /\ (v_cem = v_ci -> threshold_ok m K0 G0 Kc Gc phic v_ci Cn 1) | _ => False end)
  (fun l => match l with [alpha; f; sigma; K0; G0; phi; phic; v_cem; v_ci; Kc; Gc; Cn; f_] => out2 (GM_vpcm m alpha f sigma K0 G0 phi phic v_cem v_ci Kc Gc Cn 1 f_) | _ => Unknown end).
Proof.
  apply (regs_continuous m 13 arr_GM_vpcm_1); [fn_eq GM_vpcm_1_arr|fn_ne 13|reflexivity|].
  intros xs ys D0 L _. do 13 (destruct xs as [|? xs]; [discriminate L|]). destruct xs; [|discriminate L]. destruct D0 as (D & TH). cem D. unfold arr_GM_vpcm_1. cbn [map]. rl.
  match goal with |- regs _ _ [Fin ?alpha; Fin ?f; Fin ?sigma; Fin ?K0; Fin ?G0; Fin ?phi; Fin ?phic; Fin ?v_cem; Fin ?v_ci; Fin ?Kc; Fin ?Gc; Fin ?Cn; Fin ?f_; _; _; ?Kunc; ?Gunc] _ =>
    eapply regs_if; [reflexivity|reflexivity|reflexivity|reflexivity|rl|rl|]; intros EV; destruct (TH EV) as (PK & PG & N & Kb & Gb & E & PKb & PGb); subst v_cem;
    transitivity (out2 (call! (Kcem, Gcem) := GM_contactcement m (Fin K0) (Fin G0) (Fin Kc) (Fin Gc) (Fin phic - Fin v_ci)%fl (Fin phic) (Fin Cn) 1 in call! (Kp_stiff, Gp_stiff) := GM_pcm_stiff m (Fin f) Kunc Gunc Kcem Gcem in call! (Kp_soft, Gp_soft) := GM_pcm_soft m (Fin f) Kunc Gunc Kcem Gcem in let! Kp := (Kp_stiff * (Fin 1 - Fin alpha) + Kp_soft * Fin alpha)%fl in let! Gp := (Gp_stiff * (Fin 1 - Fin alpha) + Gp_soft * Fin alpha)%fl in GM_pcm_final m Kp Gp (Fin K0) (Fin G0) (Fin phi) (Fin phic))); [symmetry; unfold out2; unf; fn|];
    transitivity (out2 (call! (Kcem, Gcem) := GM_MUHS m (Fin K0) (Fin G0) (Fin Kc) (Fin Gc) (Fin phic - Fin v_ci)%fl (Fin phic - Fin v_ci)%fl (Fin phic) (Fin Cn) 1 in call! (Kp_stiff, Gp_stiff) := GM_pcm_stiff m (Fin f) Kunc Gunc Kcem Gcem in call! (Kp_soft, Gp_soft) := GM_pcm_soft m (Fin f) Kunc Gunc Kcem Gcem in let! Kp := (Kp_stiff * (Fin 1 - Fin alpha) + Kp_soft * Fin alpha)%fl in let! Gp := (Gp_stiff * (Fin 1 - Fin alpha) + Gp_soft * Fin alpha)%fl in GM_pcm_final m Kp Gp (Fin K0) (Fin G0) (Fin phi) (Fin phic))); [|unfold out2; unf; fn];
    rewrite E, (MUHS_threshold m K0 G0 Kc Gc phic v_ci Cn 1 Kb Gb); auto
  end.
Qed.
Lemma cont_GM_vpcm_2 m : continuous_on (fun l => match l with [alpha; f; sigma; K0; G0; phi; phic; v_cem; v_ci; Kc; Gc; Cn; f_] => cement_ok K0 G0 Gc /\ (v_cem = v_ci -> threshold_ok m K0 G0 Kc Gc phic v_ci Cn 2) | _ => False end)
  (fun l => match l with [alpha; f; sigma; K0; G0; phi; phic; v_cem; v_ci; Kc; Gc; Cn; f_] => out2 (GM_vpcm m alpha f sigma K0 G0 phi phic v_cem v_ci Kc Gc Cn 2 f_) | _ => Unknown end).
Proof.
  apply (regs_continuous m 13 arr_GM_vpcm_2); [fn_eq GM_vpcm_2_arr|fn_ne 13|reflexivity|].
  intros xs ys D0 L _. do 13 (destruct xs as [|? xs]; [discriminate L|]). destruct xs; [|discriminate L]. destruct D0 as (D & TH). cem D. unfold arr_GM_vpcm_2. cbn [map]. rl.
  match goal with |- regs _ _ [Fin ?alpha; Fin ?f; Fin ?sigma; Fin ?K0; Fin ?G0; Fin ?phi; Fin ?phic; Fin ?v_cem; Fin ?v_ci; Fin ?Kc; Fin ?Gc; Fin ?Cn; Fin ?f_; _; _; ?Kunc; ?Gunc] _ =>
    eapply regs_if; [reflexivity|reflexivity|reflexivity|reflexivity|rl|rl|]; intros EV; destruct (TH EV) as (PK & PG & N & Kb & Gb & E & PKb & PGb); subst v_cem;
    transitivity (out2 (call! (Kcem, Gcem) := GM_contactcement m (Fin K0) (Fin G0) (Fin Kc) (Fin Gc) (Fin phic - Fin v_ci)%fl (Fin phic) (Fin Cn) 2 in call! (Kp_stiff, Gp_stiff) := GM_pcm_stiff m (Fin f) Kunc Gunc Kcem Gcem in call! (Kp_soft, Gp_soft) := GM_pcm_soft m (Fin f) Kunc Gunc Kcem Gcem in let! Kp := (Kp_stiff * (Fin 1 - Fin alpha) + Kp_soft * Fin alpha)%fl in let! Gp := (Gp_stiff * (Fin 1 - Fin alpha) + Gp_soft * Fin alpha)%fl in GM_pcm_final m Kp Gp (Fin K0) (Fin G0) (Fin phi) (Fin phic))); [symmetry; unfold out2; unf; fn|];
    transitivity (out2 (call! (Kcem, Gcem) := GM_MUHS m (Fin K0) (Fin G0) (Fin Kc) (Fin Gc) (Fin phic - Fin v_ci)%fl (Fin phic - Fin v_ci)%fl (Fin phic) (Fin Cn) 2 in call! (Kp_stiff, Gp_stiff) := GM_pcm_stiff m (Fin f) Kunc Gunc Kcem Gcem in call! (Kp_soft, Gp_soft) := GM_pcm_soft m (Fin f) Kunc Gunc Kcem Gcem in let! Kp := (Kp_stiff * (Fin 1 - Fin alpha) + Kp_soft * Fin alpha)%fl in let! Gp := (Gp_stiff * (Fin 1 - Fin alpha) + Gp_soft * Fin alpha)%fl in GM_pcm_final m Kp Gp (Fin K0) (Fin G0) (Fin phi) (Fin phic))); [|unfold out2; unf; fn];
    rewrite E, (MUHS_threshold m K0 G0 Kc Gc phic v_ci Cn 2 Kb Gb); auto
  end.
Qed.
