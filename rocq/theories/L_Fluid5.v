(** * Fluid.py: White-Dutta-Ode with two equal fluids. *)
From Verif Require Import Fl Cx M_Utils M_EM M_Anis M_Fluid Spec Spec2 RealLemmas L_Utils L_Anis L_Fluid1 L_Fluid4.
Open Scope R_scope.
Section White.
Variables (m : mode) (Kd Gd K0 phi r0 rf Kf eta1 eta2 kap a sg f : R).
Hypotheses (HK : 0 < K0) (HKf : 0 < Kf < K0) (Hd : 0 < Kd < K0) (HG : 0 <= Gd) (Hp : 0 < phi <= 1)
  (Hs : 0 < sg) (Hk : kap <> 0) (Hrho : 0 < (1 - phi) * r0 + phi * rf).
Let k := gK Kd K0 Kf phi.
Let g := gB Kd K0 Kf phi.
(** The code's complex quantities when the two fluids have the same modulus. *)
Let KA := 1 / g.
Let KE := (1 - Kf * (1 - k / K0) * (1 - Kd / K0) / (phi * k * (1 - Kf / K0))) * KA.
Let b := a / Rpower sg (1/3).
Let om := 2 * PI * f.
Definition wal (eta : R) : cx := csqrt (cdiv (cmul (cmul cI (CFin om 0)) (CFin eta 0)) (CFin (kap * KE) 0)).
Definition wZ1 : cx :=
  let a1a := cmul (wal eta1) (CFin a 0) in
  let e1 := cexp (cmul (cmul (CFin (-2) 0) (wal eta1)) (CFin a 0)) in
  cdiv (cmul (CFin (eta1 * a / kap) 0) (csub (CFin 1 0) e1))
       (cadd (csub a1a (CFin 1 0)) (cmul (cadd a1a (CFin 1 0)) e1)).
Definition wZ2 : cx :=
  let a2a := cmul (wal eta2) (CFin a 0) in let a2b := cmul (wal eta2) (CFin b 0) in
  let e2 := cexp (cmul (cmul (CFin 2 0) (wal eta2)) (CFin (b - a) 0)) in
  cdiv (cmul (CFin (- eta2 * a / kap) 0) (cadd (cadd a2b (CFin 1 0)) (cmul (csub a2b (CFin 1 0)) e2)))
       (csub (cmul (cadd a2b (CFin 1 0)) (csub a2a (CFin 1 0))) (cmul (cmul (csub a2b (CFin 1 0)) (cadd a2a (CFin 1 0))) e2)).
Definition wDen : cx := cmul (cmul (cmul (CFin (b^3) 0) cI) (CFin om 0)) (cadd wZ1 wZ2).
Let wcall := Fluid_White_Dutta_Ode m (Fin Kd) (Fin Gd) (Fin K0) (Fin phi) (Fin r0) (Fin rf) (Fin rf) (Fin Kf) (Fin Kf)
  (Fin eta1) (Fin eta2) (Fin kap) (Fin a) (Fin sg) (Fin f).
Lemma White_step :
  (wDen <> CUnd /\ wDen <> CFin 0 0 -> wcall = Ret (Fin (sqrt ((k + 4/3*Gd) / ((1 - phi) * r0 + phi * rf))), Fin 0, CFin k 0)) /\
  (forall v aw z, wcall = Ret (v, aw, z) -> z = CUnd \/ (wDen <> CUnd /\ wDen <> CFin 0 0)).
Proof.
  assert (gp : 0 < g).
  { assert (x := gb_pos Kd K0 HK ltac:(lra)). assert (y := gB_pos Kd K0 Kf phi HK ltac:(lra) ltac:(lra)). unfold g. lra. }
  destruct (gK_range Kd K0 Kf phi HK ltac:(lra) ltac:(lra) Hp) as (L & U). fold k in L, U.
  assert (P3 : 0 < 3 * k + 4 * Gd) by lra.
  assert (Pk : 0 < k * (3 * k + 4 * Gd)) by (apply Rmult_lt_0_compat; lra).
  assert (EQ : k * (3 * k + 4 * Gd) + 4 * Gd * (k - k) * sg = k * (3 * k + 4 * Gd)) by ring.
  assert (EQ2 : 3 * k + 4 * Gd - 3 * (k - k) * sg = 3 * k + 4 * Gd) by ring.
  assert (EQ3 : k - Kd + sg * (k - k) = k - Kd) by ring.
  assert (B0 : 0 < 1 - Kd / K0) by (assert (Kd / K0 < 1); [apply div_lt_iff; lra|lra]).
  assert (B1 : 0 < 1 - Kf / K0) by (assert (Kf / K0 < 1); [apply div_lt_iff; lra|lra]).
  assert (B2 : 0 < phi * k * (1 - Kf / K0)) by (apply Rmult_lt_0_compat; [apply Rmult_lt_0_compat|]; lra).
  assert (K2 : 0 < K0^2) by (apply pow_lt; lra).
  assert (RP : 0 < Rpower sg (1/3)) by apply exp_pos.
  assert (gE : phi / Kf + (1 - phi) / K0 - Kd / K0^2 = g) by reflexivity.
  unfold wcall, Fluid_White_Dutta_Ode.
  repeat (first [fl1 | rewrite fpow_fin by lra | rewrite fdiv_fin by (assumption || lra)]; cbv beta zeta).
  rewrite !Gassmann_eval by (fold g; lra). rewrite !call_ret. cbv beta iota. fold k.
  repeat (first [fl1 | rewrite fdiv_fin by (assumption || lra)]; cbv beta zeta).
  rewrite EQ. 
  repeat (first [fl1 | rewrite fdiv_fin by (assumption || lra)]; cbv beta zeta).
  rewrite !gE. 
  repeat (first [fl1 | rewrite fdiv_fin by (assumption || lra)]; cbv beta zeta).
  fold KA KE b om. 
  repeat (first [fl1 | rewrite fdiv_fin by (assumption || lra)]; cbv beta zeta).
  cbn [cof]. rewrite EQ2. fold (wal eta1) (wal eta2). 
  match goal with |- context [cdiv (CFin ?z 0) (cmul (cmul (cmul (CFin (b^3) 0) cI) (CFin om 0)) (cadd ?z1 ?z2))] =>
    replace z with 0 by ring; change (cmul (cmul (cmul (CFin (b^3) 0) cI) (CFin om 0)) (cadd z1 z2)) with wDen end.
  replace (k * (3 * k + 4 * Gd) / (3 * k + 4 * Gd)) with k by (field; lra).
  assert (WD : (wDen <> CUnd /\ wDen <> CFin 0 0 /\ cdiv (CFin 0 0) wDen = CFin 0 0) \/ cdiv (CFin 0 0) wDen = CUnd).
  { destruct wDen as [u v|]; [|right; reflexivity]. destruct (Req_EM_T (u^2 + v^2) 0) as [E|N].
    - right. unfold cdiv, clift2. destruct (Req_EM_T (u^2 + v^2) 0); [reflexivity|contradiction].
    - left. repeat split; try discriminate; [intros E; injection E as -> ->; apply N; ring|].
      rewrite cdiv_fin by auto. apply cfin_eq; field; auto. }
  destruct WD as [(W1 & W2 & W3)|W].
  - split; [|intros; right; split; assumption]. intros _. rewrite W3.
    repeat first [rewrite cmul_fin | rewrite csub_fin | rewrite cadd_fin].
    rewrite cdiv_fin by (apply sumsq_nz; left; lra). rewrite cadd_fin. cbn [cimag creal cabs].
    match goal with |- context [sqrt (?u^2 + ?v^2)] => replace u with (k + 4/3*Gd) by (field; lra); replace v with 0 by (field; lra) end.
    match goal with |- context [CFin ?u ?v] => replace u with k by (field; lra); replace v with 0 by (field; lra) end.
    repeat (first [fl1 | rewrite fdiv_fin by (assumption || lra)]; cbv beta zeta).
    replace (0 / (k + 4/3*Gd)) with 0 by (field; lra). rewrite atan_0.
    repeat (first [fl1 | rewrite fdiv_fin by (assumption || lra)]; cbv beta zeta).
    replace (0 / 2) with 0 by field. rewrite ftan_fin by (rewrite cos_0; lra). rewrite cos_0, tan_0.
    replace ((1 - phi) * r0 + phi * sg * rf + phi * (1 - sg) * rf) with ((1 - phi) * r0 + phi * rf) by ring.
    replace (sqrt ((k + 4/3*Gd)^2 + 0^2)) with (k + 4/3*Gd).
    2:{ replace ((k + 4/3*Gd)^2 + 0^2) with ((k + 4/3*Gd)^2) by ring. rewrite sqrt_pow2; lra. }
    set (rho := (1 - phi) * r0 + phi * rf) in *.
    assert (MP : 0 < (k + 4/3*Gd) / rho) by (apply Rdiv_lt_0_compat; lra).
    assert (SP := sqrt_lt_R0 _ MP).
    rewrite fsqrt_fin by lra.
    replace (om / (sqrt ((k + 4/3*Gd) / rho))) with (om / sqrt ((k + 4/3*Gd) / rho)) by reflexivity.
    repeat (first [fl1 | rewrite fdiv_fin by (assumption || lra)]; cbv beta zeta).
    replace (sqrt ((k + 4/3*Gd) / rho) * 1 / 1) with (sqrt ((k + 4/3*Gd) / rho)) by field.
    repeat (first [fl1 | rewrite fdiv_fin by (assumption || lra)]; cbv beta zeta).
    reteq. ring.
  - split.
    + intros (W1 & W2). exfalso. destruct wDen as [u v|]; [|congruence]. 
      assert (u^2 + v^2 <> 0). { intros E. apply sumsq_0 in E. destruct E as (-> & ->). congruence. }
      rewrite cdiv_fin in W by auto. discriminate.
    + intros v aw z. rewrite W. 
      change (csub (CFin 1 0) (cmul (CFin k 0) CUnd)) with CUnd. change (cdiv (CFin k 0) CUnd) with CUnd.
      change (cadd CUnd (CFin (4 * Gd / 3) 0)) with CUnd. cbn [cimag creal cabs].
      intros E. left.
      repeat match type of E with bind ?x _ = _ => let h := fresh "B" in destruct x eqn:h; cbn [bind] in E; try discriminate E end.
      all: congruence.
Qed.
End White.
