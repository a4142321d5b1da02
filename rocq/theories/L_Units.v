(** * A dimension system for the programs of M_Array.v and its soundness. *)
From Verif Require Import Spec20 Fl M_Array.
Open Scope R_scope.

Definition dred (d : dim) : dim := let '(a, b, c) := d in (Qred a, Qred b, Qred c).
Definition dmul (d e : dim) : dim := let '(a, b, c) := d in let '(a', b', c') := e in dred (a + a', b + b', c + c')%Q.
Definition ddiv (d e : dim) : dim := let '(a, b, c) := d in let '(a', b', c') := e in dred (a - a', b - b', c - c')%Q.
Definition dpow (q : Q) (d : dim) : dim := let '(a, b, c) := d in dred (q * a, q * b, q * c)%Q.

(** [clit e q]: e is an arithmetic expression of literals with value q in every mode. *)
Inductive clit : expr -> Q -> Prop :=
| CL q r : r = Q2R q -> clit (ELit r) q
| CNeg e q : clit e q -> clit (EOp1 ONeg e) (- q)
| CDiv o a b p q : clit a p -> clit b q -> (o = ODiv \/ o = ODivN) -> ~ (q == 0)%Q -> clit (EOp2 o a b) (p / q).

Inductive has (ds : list dim) : expr -> dim -> Prop :=
| HVar n d : nth_error ds n = Some d -> has ds (EVar n) d
| HLit r : has ds (ELit r) dless
| HZero d : has ds (ELit 0) d
| HNeg e d : has ds e d -> has ds (EOp1 ONeg e) d
| HRad e d : has ds e d -> has ds (EOp1 ODeg2rad e) d
| HSqrt e d d' : has ds e d -> d' = dpow (Qmake 1 2) d -> has ds (EOp1 OSqrt e) d'
| HPown n e d d' : has ds e d -> d' = dpow (Qmake (Z.of_nat n) 1) d -> has ds (EOp1 (OPown n) e) d'
| HFun o e : has ds e dless -> has ds (EOp1 o e) dless
| HAdd o e1 e2 d : has ds e1 d -> has ds e2 d -> (o = OAdd \/ o = OSub \/ o = OMaximum) -> has ds (EOp2 o e1 e2) d
| HMul e1 e2 d1 d2 d : has ds e1 d1 -> has ds e2 d2 -> d = dmul d1 d2 -> has ds (EOp2 OMul e1 e2) d
| HDiv o e1 e2 d1 d2 d : has ds e1 d1 -> has ds e2 d2 -> d = ddiv d1 d2 -> (o = ODiv \/ o = ODivN) -> has ds (EOp2 o e1 e2) d
| HFun2 o e1 e2 : has ds e1 dless -> has ds e2 dless -> has ds (EOp2 o e1 e2) dless
| HPow o e1 e2 d q d' : has ds e1 d -> clit e2 q -> d' = dpow q d -> (o = OPow \/ o = OPowN) -> has ds (EOp2 o e1 e2) d'.

Inductive hasp : list dim -> prog -> list dim -> Prop :=
| HRet ds es outs : Forall2 (has ds) es outs -> hasp ds (PRet es) outs
| HLet ds e p d outs : has ds e d -> hasp (ds ++ [d]) p outs -> hasp ds (PLet e p) outs
| HIf ds c e1 e2 d p q outs : has ds e1 d -> has ds e2 d -> hasp ds p outs -> hasp ds q outs -> hasp ds (PIf c e1 e2 p q) outs.

(** ** Factors *)
Section U.
Variable u : units.
Lemma factor_pos d : 0 < factor u d.
Proof. destruct d as ((a & b) & c). cbn. repeat apply Rmult_lt_0_compat; apply exp_pos. Qed.
Lemma factor_dless : factor u dless = 1.
Proof. cbn. replace (Q2R 0) with 0 by (unfold Q2R; cbn; lra). unfold Rpower. rewrite !Rmult_0_l, exp_0. ring. Qed.
Lemma factor_dred d : factor u (dred d) = factor u d.
Proof.
  destruct d as ((a & b) & c). cbn. rewrite !(Qeq_eqR _ _ (Qred_correct _)). reflexivity.
Qed.
Lemma factor_dmul d e : factor u (dmul d e) = factor u d * factor u e.
Proof.
  destruct d as ((a & b) & c), e as ((a' & b') & c'). unfold dmul. rewrite factor_dred. cbn.
  rewrite !Q2R_plus, !Rpower_plus. ring.
Qed.
Lemma Rpower_neg x y : Rpower x (- y) = / Rpower x y.
Proof. apply Rpower_Ropp. Qed.
Lemma factor_ddiv d e : factor u (ddiv d e) = factor u d / factor u e.
Proof.
  destruct d as ((a & b) & c), e as ((a' & b') & c'). unfold ddiv. rewrite factor_dred. cbn.
  rewrite !Q2R_minus. unfold Rminus. rewrite !Rpower_plus, !Rpower_Ropp. field.
  repeat split; apply Rgt_not_eq, exp_pos.
Qed.
Lemma factor_dpow q d : factor u (dpow q d) = Rpower (factor u d) (Q2R q).
Proof.
  destruct d as ((a & b) & c). unfold dpow. rewrite factor_dred. cbn. rewrite !Q2R_mult.
  rewrite <- !Rpower_mult_distr by (repeat apply Rmult_lt_0_compat; apply exp_pos).
  rewrite !Rpower_mult. f_equal; [f_equal|]; f_equal; ring.
Qed.
Lemma inu_dless x : inu u dless x = x.
Proof. destruct x; cbn -[factor]; try reflexivity. rewrite factor_dless. f_equal. ring. Qed.
Lemma inu_zero d : inu u d (Fin 0) = Fin 0.
Proof. cbn -[factor]. rewrite Rmult_0_r. reflexivity. Qed.
End U.

(** ** Operations *)
Section Ops.
Variable u : units.
Lemma inu_neg d x : fneg (inu u d x) = inu u d (fneg x).
Proof. destruct x; cbn -[factor]; try reflexivity. f_equal. ring. Qed.
Lemma inu_rad d x : fdeg2rad (inu u d x) = inu u d (fdeg2rad x).
Proof. destruct x; cbn -[factor]; try reflexivity. f_equal. field. Qed.
Lemma inu_add d x y : fadd (inu u d x) (inu u d y) = inu u d (fadd x y).
Proof. destruct x, y; cbn -[factor]; try reflexivity. f_equal. ring. Qed.
Lemma inu_sub d x y : fsub (inu u d x) (inu u d y) = inu u d (fsub x y).
Proof. destruct x, y; cbn -[factor]; try reflexivity. f_equal. ring. Qed.
Lemma inu_max d x y : fmaximum (inu u d x) (inu u d y) = inu u d (fmaximum x y).
Proof. destruct x, y; cbn -[factor]; try reflexivity. f_equal. rewrite RmaxRmult; [reflexivity|left; apply factor_pos]. Qed.
Lemma fac0 d r : factor u d * r = 0 <-> r = 0.
Proof.
  assert (P := factor_pos u d). split; [|intros ->; ring]. intros E. apply Rmult_integral in E. destruct E; [lra|auto].
Qed.
Lemma zero_dec A d r (a b : A) : (if Req_EM_T (factor u d * r) 0 then a else b) = if Req_EM_T r 0 then a else b.
Proof. destruct (Req_EM_T (factor u d * r) 0) as [E|E], (Req_EM_T r 0) as [F|F]; auto; rewrite fac0 in E; contradiction. Qed.
Lemma inu_mul d e x y : fmul (inu u d x) (inu u e y) = inu u (dmul d e) (fmul x y).
Proof.
  destruct x, y; cbn -[factor dmul]; try reflexivity; rewrite ?zero_dec.
  - rewrite factor_dmul. f_equal. ring.
  - destruct (Req_EM_T r 0); reflexivity.
  - destruct (Req_EM_T r 0); reflexivity.
Qed.
Lemma inu_div m d e x y : fdiv m (inu u d x) (inu u e y) = inu u (ddiv d e) (fdiv m x y).
Proof.
  assert (P := factor_pos u e).
  destruct x, y, m; cbn -[factor ddiv]; try reflexivity; rewrite ?zero_dec; try (destruct (Req_EM_T r0 0)); try reflexivity; rewrite ?zero_dec;
  try (destruct (Req_EM_T r 0)); try reflexivity; cbn -[factor ddiv]; try (f_equal; ring); rewrite ?factor_ddiv; f_equal; field; lra.
Qed.
Lemma inu_pown d n x : fpown (inu u d x) n = inu u (dpow (Qmake (Z.of_nat n) 1) d) (fpown x n).
Proof.
  assert (P := factor_pos u d).
  assert (E : factor u (dpow (Qmake (Z.of_nat n) 1) d) = factor u d ^ n).
  { rewrite factor_dpow. replace (Q2R (Qmake (Z.of_nat n) 1)) with (INR n).
    - apply Rpower_pow, P.
    - unfold Q2R. cbn. rewrite <- INR_IZR_INZ. field. }
  destruct x; cbn -[factor dpow].
  - rewrite E, Rpow_mult_distr. reflexivity.
  - destruct n; [|reflexivity]. cbn -[factor dpow] in *. rewrite E; f_equal; ring.
  - destruct n; [|reflexivity]. cbn -[factor dpow] in *. rewrite E; f_equal; ring.
  - destruct n; [|reflexivity]. cbn -[factor dpow] in *. rewrite E; f_equal; ring.
  - reflexivity.
Qed.
Lemma inu_sqrt d x : fsqrt (inu u d x) = inu u (dpow (Qmake 1 2) d) (fsqrt x).
Proof.
  assert (P := factor_pos u d). destruct x; cbn -[factor dpow]; try reflexivity.
  assert (H : 0 <= factor u d * r <-> 0 <= r).
  { split; intros; [|apply Rmult_le_pos; lra]. apply Rmult_le_reg_l with (factor u d); lra. }
  destruct (Rle_dec 0 (factor u d * r)), (Rle_dec 0 r); try tauto; try reflexivity.
  cbn -[factor dpow]. rewrite factor_dpow. replace (Q2R (Qmake 1 2)) with (/2) by (unfold Q2R; cbn; lra).
  rewrite Rpower_sqrt, sqrt_mult by lra. reflexivity.
Qed.
Lemma powerRZ_mul x y z : x <> 0 -> y <> 0 -> powerRZ (x * y) z = powerRZ x z * powerRZ y z.
Proof.
  intros Hx Hy. destruct z as [|p|p]; cbn; [ring|apply Rpow_mult_distr|]. rewrite Rpow_mult_distr.
  rewrite Rinv_mult. reflexivity.
Qed.
Lemma inu_pow m d q x : fpow m (inu u d x) (Fin (Q2R q)) = inu u (dpow q d) (fpow m x (Fin (Q2R q))).
Proof.
  assert (P := factor_pos u d). destruct x; cbn -[factor dpow]; try reflexivity.
  2:{ destruct (Req_EM_T (Q2R q) 0) as [E|]; [|reflexivity]. cbn -[factor dpow]. rewrite factor_dpow, E. unfold Rpower. rewrite Rmult_0_l, exp_0. f_equal. ring. }
  assert (H : 0 < factor u d * r <-> 0 < r).
  { split; intros; [|apply Rmult_lt_0_compat; lra]. apply Rmult_lt_reg_l with (factor u d); lra. }
  destruct (Rlt_dec 0 (factor u d * r)), (Rlt_dec 0 r); try tauto.
  - cbn -[factor dpow]. rewrite factor_dpow, Rpower_mult_distr by lra. reflexivity.
  - rewrite zero_dec. destruct (Req_EM_T r 0) as [->|N].
    + destruct (Req_EM_T (Q2R q) 0) as [E|].
      * cbn -[factor dpow]. rewrite factor_dpow, E. unfold Rpower. rewrite Rmult_0_l, exp_0. f_equal. ring.
      * destruct (Rlt_dec 0 (Q2R q)); [cbn -[factor dpow]; f_equal; ring|]. destruct m; reflexivity.
    + destruct (Req_EM_T (Q2R q) (IZR (Int_part (Q2R q)))) as [E|]; [|destruct m; reflexivity].
      cbn -[factor dpow]. rewrite factor_dpow, powerRZ_mul by lra. f_equal. f_equal.
      rewrite E at 2. rewrite <- powerRZ_Rpower by lra. reflexivity.
Qed.
Lemma inu_cmp c d x y : semc c (inu u d x) (inu u d y) = semc c x y.
Proof.
  assert (P := factor_pos u d).
  destruct c, x, y; cbn -[factor]; try reflexivity; f_equal.
  - unfold Rltb. destruct (Rlt_dec (factor u d * r) (factor u d * r0)) as [H|H], (Rlt_dec r r0) as [K|K]; auto; exfalso; [apply K|apply H].
    + apply Rmult_lt_reg_l with (factor u d); lra.
    + apply Rmult_lt_compat_l; lra.
  - unfold Rleb. destruct (Rle_dec (factor u d * r) (factor u d * r0)) as [H|H], (Rle_dec r r0) as [K|K]; auto; exfalso; [apply K|apply H].
    + apply Rmult_le_reg_l with (factor u d); lra.
    + apply Rmult_le_compat_l; lra.
  - unfold Reqb. destruct (Req_EM_T (factor u d * r) (factor u d * r0)) as [H|H], (Req_EM_T r r0) as [K|K]; auto; exfalso; [apply K|apply H].
    + apply Rmult_eq_reg_l with (factor u d); lra.
    + rewrite K; reflexivity.
Qed.
Lemma clit_ev m e q env : clit e q -> ev m env e = Fin (Q2R q).
Proof.
  induction 1 as [q r ->|e q H I|o a b p q Ha Ia Hb Ib Ho N]; cbn; [reflexivity|..].
  - rewrite I. cbn. rewrite Q2R_opp. reflexivity.
  - rewrite Ia, Ib. assert (Q2R q <> 0) by (intro E; apply N, eqR_Qeq; rewrite E; unfold Q2R; cbn; lra).
    unfold Qdiv. rewrite Q2R_mult, Q2R_inv by auto.
    destruct Ho as [-> | ->]; cbn [sem2]; rewrite fdiv_fin by auto; reflexivity.
Qed.
End Ops.

(** ** Expressions and programs on numbers *)
Section Sound.
Variable u : units.
Definition env_ok (ds : list dim) (env env' : list fl) : Prop :=
  forall n d, nth_error ds n = Some d -> nth n env' Und = inu u d (nth n env Und).
Lemma has_ev m ds e d env env' : has ds e d -> env_ok ds env env' -> ev m env' e = inu u d (ev m env e).
Proof.
  intros H OK.
  induction H as [n d E|r|d|e d H I|e d H I|e d d' H I ->|n e d d' H I ->|o e H I|o e1 e2 d H1 I1 H2 I2 Ho|e1 e2 d1 d2 d H1 I1 H2 I2 ->
    |o e1 e2 d1 d2 d H1 I1 H2 I2 -> Ho|o e1 e2 H1 I1 H2 I2|o e1 e2 d q d' H I C -> Ho]; cbn [ev sem1].
  - apply OK, E.
  - symmetry. apply inu_dless.
  - symmetry. apply inu_zero.
  - rewrite I. apply inu_neg.
  - rewrite I. apply inu_rad.
  - rewrite I. apply inu_sqrt.
  - rewrite I. apply inu_pown.
  - rewrite I, !inu_dless. reflexivity.
  - rewrite I1, I2. destruct Ho as [-> | [-> | ->]]; cbn [sem2]; [apply inu_add|apply inu_sub|apply inu_max].
  - rewrite I1, I2. apply inu_mul.
  - rewrite I1, I2. destruct Ho as [-> | ->]; cbn [sem2]; apply inu_div.
  - rewrite I1, I2, !inu_dless. reflexivity.
  - rewrite I, !(clit_ev m e2 q) by auto. destruct Ho as [-> | ->]; cbn [sem2]; apply inu_pow.
Qed.
Lemma env_app ds env env' d x : length env = length ds -> length env' = length ds -> env_ok ds env env' ->
  env_ok (ds ++ [d]) (env ++ [x]) (env' ++ [inu u d x]).
Proof.
  intros L L' OK n e E. destruct (Nat.lt_ge_cases n (length ds)) as [B|B].
  - rewrite nth_error_app1 in E by auto. rewrite !app_nth1 by (rewrite ?L, ?L'; auto). apply OK, E.
  - rewrite nth_error_app2 in E by auto. rewrite !app_nth2 by (rewrite ?L, ?L'; auto). rewrite L, L'.
    destruct (n - length ds)%nat as [|k]; cbn in *; [congruence|]. destruct k; discriminate.
Qed.
Lemma inu_exc d x e : inu u d x = Exc e <-> x = Exc e.
Proof. destruct x; cbn -[factor]; split; congruence. Qed.
Lemma bind_inu B d x (k k' : fl -> outcome B) (r : outcome B -> outcome B) :
  (forall e, r (Raise e) = Raise e) -> (k' (inu u d x) = r (k x)) -> bind (inu u d x) k' = r (bind x k).
Proof. intros HR H. destruct x; cbn [bind inu] in *; auto. Qed.
Lemma rets_res ds xs : length xs = length ds -> rets (inus u ds xs) = res u ds (rets xs).
Proof.
  revert xs. induction ds as [|d ds I]; intros [|x xs] L; try discriminate; [reflexivity|].
  cbn [inus rets]. apply (bind_inu _ d x); [reflexivity|]. rewrite I by (cbn in L; congruence).
  destruct (rets xs); reflexivity.
Qed.
Theorem hasp_run m ds p outs : hasp ds p outs -> forall env env', length env = length ds -> length env' = length ds -> env_ok ds env env' ->
  run m p env' = res u outs (run m p env).
Proof.
  induction 1 as [ds es outs F|ds e p d outs He Hp I|ds c e1 e2 d p q outs H1 H2 Hp Ip Hq Iq]; intros env env' L L' OK; cbn [run].
  - rewrite <- rets_res.
    + f_equal. clear L L'. induction F as [|e d es ds' He F IF]; [reflexivity|]. cbn [map inus]. f_equal; [apply (has_ev m ds); auto|exact IF].
    + rewrite map_length. clear -F. induction F; cbn; congruence.
  - rewrite (has_ev m ds e d env env') by auto. apply bind_inu; [reflexivity|].
    apply I; rewrite ?app_length; cbn; try lia. apply env_app; auto.
  - rewrite (has_ev m ds e1 d env env'), (has_ev m ds e2 d env env'), inu_cmp by auto.
    destruct (semc c (ev m env e1) (ev m env e2)) as [[]|]; auto.
Qed.
Lemma env_inus ds env : length env = length ds -> env_ok ds env (inus u ds env).
Proof.
  revert env. induction ds as [|d ds I]; intros [|x env] L [|n] e E; try discriminate; cbn in *; [congruence|].
  apply I; auto.
Qed.
Lemma inus_length ds xs : length xs = length ds -> length (inus u ds xs) = length ds.
Proof. revert xs. induction ds as [|d ds I]; intros [|x xs] L; try discriminate; cbn in *; auto. Qed.
Theorem units_run m ins p outs : hasp ins p outs -> forall xs, length xs = length ins ->
  run m p (inus u ins xs) = res u outs (run m p xs).
Proof. intros H xs L. apply (hasp_run m ins); auto using env_inus, inus_length. Qed.
End Sound.

(** ** Arrays *)
Section Arr.
Variable u : units.
Definition envv (ds : list dim) (env env' : list val) : Prop :=
  forall n d, nth_error ds n = Some d -> nth n env' (VS Und) = inv_ u d (nth n env (VS Und)).
Lemma num_inu d x : num (inu u d x) = call (num x) (fun v => Ret (inv_ u d v)).
Proof. destruct x; reflexivity. Qed.
(** One operand: what the operation does to every number, it does to every array. *)
Lemma app1_inv o d d' v : (forall x, sem1 o (inu u d x) = inu u d' (sem1 o x)) -> app1 o (inv_ u d v) = call (app1 o v) (fun w => Ret (inv_ u d' w)).
Proof.
  intros H. destruct v as [x|l]; cbn [inv_ app1].
  - rewrite H. apply num_inu.
  - cbn [call inv_]. do 2 f_equal. rewrite !map_map. apply map_ext. apply H.
Qed.
Lemma map2_inu f d e g a b : (forall x y, f (inu u d x) (inu u e y) = inu u g (f x y)) ->
  map2 f (map (inu u d) a) (map (inu u e) b) = map (inu u g) (map2 f a b).
Proof. intros H. revert b. induction a as [|x a I]; intros [|y b]; cbn; auto. rewrite H, I. reflexivity. Qed.
Lemma broadcast_inu f d e g a b : (forall x y, f (inu u d x) (inu u e y) = inu u g (f x y)) ->
  broadcast f (map (inu u d) a) (map (inu u e) b) = call (broadcast f a b) (fun l => Ret (map (inu u g) l)).
Proof.
  intros H. unfold broadcast. rewrite !map_length. destruct (Nat.eqb (length a) (length b)).
  - cbn [call]. f_equal. apply map2_inu, H.
  - assert (L : forall x c, map (f (inu u d x)) (map (inu u e) c) = map (inu u g) (map (f x) c)) by (intros; rewrite !map_map; apply map_ext; intros; apply H).
    assert (R : forall y c, map (fun x => f x (inu u e y)) (map (inu u d) c) = map (inu u g) (map (fun x => f x y) c)) by (intros; rewrite !map_map; apply map_ext; intros; apply H).
    destruct a as [|x [|x' a]], b as [|y [|y' b]]; cbn [map call]; auto; try (f_equal; first [apply (L x (_ :: _ :: _))|apply (R y (_ :: _ :: _))|apply (L x [])|apply (R y [])]; fail); first [reflexivity|rewrite H; reflexivity].
Qed.
Lemma app2_inv m o d e g v w : (forall m x y, sem2 m o (inu u d x) (inu u e y) = inu u g (sem2 m o x y)) ->
  app2 m o (inv_ u d v) (inv_ u e w) = call (app2 m o v w) (fun z => Ret (inv_ u g z)).
Proof.
  intros H. destruct v as [x|a], w as [y|b]; cbn [inv_ app2].
  - rewrite H. apply num_inu.
  - cbn [call inv_]. do 2 f_equal. rewrite !map_map. apply map_ext. intros; apply H.
  - cbn [call inv_]. do 2 f_equal. rewrite !map_map. apply map_ext. intros; apply H.
  - rewrite (broadcast_inu _ d e g) by (intros; apply H). destruct (broadcast _ a b); reflexivity.
Qed.
Lemma inv_dless v : inv_ u dless v = v.
Proof. destruct v; cbn [inv_]; f_equal; [apply inu_dless|]. rewrite (map_ext _ (fun x => x)) by apply inu_dless. apply map_id. Qed.
Lemma call_call A B (x : outcome A) (f : A -> outcome B) k : call x (fun a => call (f a) k) = call (call x f) k :> outcome B.
Proof. destruct x; reflexivity. Qed.
Lemma clit_ev_arr m e q env : clit e q -> ev_arr m env e = Ret (VS (Fin (Q2R q))).
Proof.
  intros H. assert (E := clit_ev m e q []). 
  induction H as [q r ->|e q H I|o a b p q Ha Ia Hb Ib Ho N]; cbn [ev_arr]; [reflexivity|..].
  - rewrite I by (apply (clit_ev m e q); auto). cbn. rewrite Q2R_opp. reflexivity.
  - rewrite Ia, Ib by (apply clit_ev; auto). cbn [call app2].
    assert (Q2R q <> 0) by (intro X; apply N, eqR_Qeq; rewrite X; unfold Q2R; cbn; lra).
    unfold Qdiv. rewrite Q2R_mult, Q2R_inv by auto.
    destruct Ho as [-> | ->]; cbn [sem2]; rewrite fdiv_fin by auto; reflexivity.
Qed.
Lemma has_ev_arr m ds e d env env' : has ds e d -> envv ds env env' -> ev_arr m env' e = call (ev_arr m env e) (fun v => Ret (inv_ u d v)).
Proof.
  intros H OK.
  assert (one : forall o e d d', (forall x, sem1 o (inu u d x) = inu u d' (sem1 o x)) -> ev_arr m env' e = call (ev_arr m env e) (fun v => Ret (inv_ u d v)) ->
     ev_arr m env' (EOp1 o e) = call (ev_arr m env (EOp1 o e)) (fun v => Ret (inv_ u d' v))).
  { intros o e0 d0 d' S I. cbn [ev_arr]. rewrite I. destruct (ev_arr m env e0); cbn [call]; auto. apply app1_inv, S. }
  assert (two : forall o e1 e2 d1 d2 d', (forall m x y, sem2 m o (inu u d1 x) (inu u d2 y) = inu u d' (sem2 m o x y)) ->
     ev_arr m env' e1 = call (ev_arr m env e1) (fun v => Ret (inv_ u d1 v)) -> ev_arr m env' e2 = call (ev_arr m env e2) (fun v => Ret (inv_ u d2 v)) ->
     ev_arr m env' (EOp2 o e1 e2) = call (ev_arr m env (EOp2 o e1 e2)) (fun v => Ret (inv_ u d' v))).
  { intros o e1 e2 d1 d2 d' S I1 I2. cbn [ev_arr]. rewrite I1, I2. destruct (ev_arr m env e1); cbn [call]; auto.
    destruct (ev_arr m env e2); cbn [call]; auto. apply app2_inv, S. }
  induction H as [n d E|r|d|e d H I|e d H I|e d d' H I ->|n e d d' H I ->|o e H I|o e1 e2 d H1 I1 H2 I2 Ho|e1 e2 d1 d2 d H1 I1 H2 I2 ->
    |o e1 e2 d1 d2 d H1 I1 H2 I2 -> Ho|o e1 e2 H1 I1 H2 I2|o e1 e2 d q d' H I C -> Ho].
  - cbn. f_equal. apply OK, E.
  - cbn [ev_arr call inv_]. rewrite inu_dless. reflexivity.
  - cbn [ev_arr call inv_]. rewrite inu_zero. reflexivity.
  - apply (one _ _ d); [apply inu_neg|exact I].
  - apply (one _ _ d); [apply inu_rad|exact I].
  - apply (one _ _ d); [apply inu_sqrt|exact I].
  - apply (one _ _ d); [apply inu_pown|exact I].
  - apply (one _ _ dless); [intros; rewrite !inu_dless; reflexivity|exact I].
  - apply (two _ _ _ d d); auto. intros. destruct Ho as [-> | [-> | ->]]; [apply inu_add|apply inu_sub|apply inu_max].
  - apply (two _ _ _ d1 d2); auto. intros. apply inu_mul.
  - apply (two _ _ _ d1 d2); auto. intros. destruct Ho as [-> | ->]; apply inu_div.
  - apply (two _ _ _ dless dless); auto. intros. rewrite !inu_dless. reflexivity.
  - cbn [ev_arr]. rewrite I, !(clit_ev_arr m e2 q) by auto. destruct (ev_arr m env e1) as [v|x|]; cbn [call]; auto.
    destruct v as [x|l]; cbn [inv_ app2].
    + replace (sem2 m o (inu u d x) (Fin (Q2R q))) with (inu u (dpow q d) (sem2 m o x (Fin (Q2R q))))
        by (symmetry; destruct Ho as [-> | ->]; apply inu_pow). apply num_inu.
    + cbn [call inv_]. do 2 f_equal. rewrite !map_map. apply map_ext. intros. destruct Ho as [-> | ->]; apply inu_pow.
Qed.
Lemma truth_inv c d v w : truth c (inv_ u d v) (inv_ u d w) = truth c v w.
Proof.
  destruct v as [x|[|x [|x' a]]], w as [y|[|y [|y' b]]]; cbn [inv_ truth map]; rewrite ?inu_cmp; reflexivity.
Qed.
Lemma envv_app ds env env' d x : length env = length ds -> length env' = length ds -> envv ds env env' ->
  envv (ds ++ [d]) (env ++ [x]) (env' ++ [inv_ u d x]).
Proof.
  intros L L' OK n e E. destruct (Nat.lt_ge_cases n (length ds)) as [B|B].
  - rewrite nth_error_app1 in E by auto. rewrite !app_nth1 by (rewrite ?L, ?L'; auto). apply OK, E.
  - rewrite nth_error_app2 in E by auto. rewrite !app_nth2 by (rewrite ?L, ?L'; auto). rewrite L, L'.
    destruct (n - length ds)%nat as [|k]; cbn in *; [congruence|]. destruct k; discriminate.
Qed.
Lemma hasp_run_arr m ds p outs : hasp ds p outs -> forall env env', length env = length ds -> length env' = length ds -> envv ds env env' ->
  run_arr m p env' = resv u outs (run_arr m p env).
Proof.
  induction 1 as [ds es outs F|ds e p d outs He Hp I|ds c e1 e2 d p q outs H1 H2 Hp Ip Hq Iq]; intros env env' L L' OK; cbn [run_arr].
  - clear L L'. induction F as [|e d es ds' He F IF]; [reflexivity|]. cbn [ev_arrs]. rewrite (has_ev_arr m ds e d env env') by auto.
    destruct (ev_arr m env e); cbn [call resv]; auto. rewrite IF. destruct (ev_arrs m env es); reflexivity.
  - rewrite (has_ev_arr m ds e d env env') by auto. destruct (ev_arr m env e); cbn [call resv]; auto.
    apply I; rewrite ?app_length; cbn; try lia. apply envv_app; auto.
  - rewrite (has_ev_arr m ds e1 d env env'), (has_ev_arr m ds e2 d env env') by auto.
    destruct (ev_arr m env e1); cbn [call resv]; auto. destruct (ev_arr m env e2); cbn [call resv]; auto.
    rewrite truth_inv. destruct (truth c a a0) as [[]| |]; cbn [call resv]; auto.
Qed.
Lemma envv_invs ds env : length env = length ds -> envv ds env (invs u ds env).
Proof.
  revert env. induction ds as [|d ds I]; intros [|x env] L [|n] e E; try discriminate; cbn in *; [congruence|].
  apply I; auto.
Qed.
Lemma invs_length ds xs : length xs = length ds -> length (invs u ds xs) = length ds.
Proof. revert xs. induction ds as [|d ds I]; intros [|x xs] L; try discriminate; cbn in *; auto. Qed.
Theorem units_run_arr m ins p outs : hasp ins p outs -> forall xs, length xs = length ins ->
  run_arr m p (invs u ins xs) = resv u outs (run_arr m p xs).
Proof. intros H xs L. apply (hasp_run_arr m ins); auto using envv_invs, invs_length. Qed.
End Arr.

(** ** Inference of dimensions *)
Ltac r2q r :=
  lazymatch r with
  | IZR ?z => let z := eval vm_compute in z in constr:(Qmake z 1)
  | Rdiv ?a ?b => let a := r2q a in let b := r2q b in let q := eval vm_compute in (Qred (Qdiv a b)) in q
  | Ropp ?a => let a := r2q a in let q := eval vm_compute in (Qred (Qopp a)) in q
  end.
Ltac q2r_eq := unfold Q2R; cbn [Qnum Qden]; lra.
Ltac clits :=
  lazymatch goal with
  | |- clit (ELit ?r) _ => let q := r2q r in apply (CL q r); q2r_eq
  | |- clit (EOp1 ONeg _) _ => eapply CNeg; clits
  | |- clit (EOp2 _ _ _) _ => eapply CDiv; [clits|clits|auto|vm_compute; discriminate]
  end.
Ltac dcomp := lazymatch goal with |- _ = ?e => let v := eval vm_compute in e in exact (eq_refl v) end.
Ltac hs :=
  lazymatch goal with
  | |- has _ (EVar _) _ => eapply HVar; reflexivity
  | |- has _ (ELit _) _ => first [apply HLit | apply HZero]
  | |- has _ (EOp1 ONeg _) _ => eapply HNeg; hs
  | |- has _ (EOp1 ODeg2rad _) _ => eapply HRad; hs
  | |- has _ (EOp1 OSqrt _) _ => eapply HSqrt; [hs|dcomp]
  | |- has _ (EOp1 (OPown _) _) _ => eapply HPown; [hs|dcomp]
  | |- has _ (EOp1 _ _) _ => eapply HFun; hs
  | |- has _ (EOp2 OMul _ _) _ => eapply HMul; [hs|hs|dcomp]
  | |- has _ (EOp2 ODiv _ _) _ => eapply HDiv; [hs|hs|dcomp|auto]
  | |- has _ (EOp2 ODivN _ _) _ => eapply HDiv; [hs|hs|dcomp|auto]
  | |- has _ (EOp2 OPow _ _) _ => first [eapply HPow; [hs|clits|dcomp|auto] | eapply HFun2; hs]
  | |- has _ (EOp2 OPowN _ _) _ => first [eapply HPow; [hs|clits|dcomp|auto] | eapply HFun2; hs]
  | |- has _ (EOp2 _ (ELit 0) _) _ => eapply HAdd; [|hs|auto]; hs
  | |- has _ (EOp2 _ _ _) _ => eapply HAdd; [hs|hs|auto]
  end.
Ltac hps :=
  cbn [app];
  lazymatch goal with
  | |- hasp _ (PRet _) _ => apply HRet; repeat (apply Forall2_cons; [hs|]); apply Forall2_nil
  | |- hasp _ (PLet _ _) _ => eapply HLet; [hs|hps]
  | |- hasp _ (PIf _ _ _ _ _) _ => eapply HIf; [hs|hs|hps|hps]
  end.
