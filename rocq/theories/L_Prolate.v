(** * Prolate inclusions: Eshelby's integral and what EM.PQ returns for aspect ratios above 1. *)
From Verif Require Import Fl M_Utils M_EM Spec Spec3 Spec7 Spec12 RealLemmas L_EM5 L_EM8.
Open Scope R_scope.

(** ** The tensor with a given I1 *)
Section Conc.
Variables (Km Gm Ki Gi al th : R).
Hypotheses (HK : 0 < Km) (HG : 0 < Gm) (Ha : 0 < al) (Ha1 : al <> 1).
Let A := Gi / Gm - 1.
Let B := (Ki / Km - Gi / Gm) / 3.
Let r := Gm / (Km + 4/3*Gm).
Let nu := poisson Km Gm.
Let f := al^2 * (3 * th - 2) / (1 - al^2).
Hypotheses (N2 : pF2 A B r f th <> 0) (N3 : pF3 A r f th <> 0) (N4 : pF4 A r f th <> 0).
Lemma mura_conc : concentration (mura_S (2 * PI * th) nu al) (mura_shear (2 * PI * th) nu al) Km Gm Ki Gi (pqP A B r f th) (pqQ A B r f th).
Proof.
  assert (al^2 > 0) by nra. assert (Q : 1 - al^2 <> 0) by (intros E; assert ((1 - al) * (1 + al) = 0) by lra; nra).
  destruct (obl_nu Km Gm HK HG) as (X1 & X2 & X3). fold r nu in X1, X2, X3. assert (PP := PI_RGT_0).
  assert (Ef : f = al^2 * (f + 3 * th - 2)) by (unfold f; field; lra).
  assert (E13 : (mura_I (2 * PI * th) 0 - mura_I (2 * PI * th) 2) / (al^2 - 1) = - 2 * PI * (f + 3 * th - 2)).
  { unfold mura_I; cbn [nth]. unfold f. field. lra. }
  assert (L : forall a b, (a + (1 - 2 * nu) * b) / (8 * PI * (1 - nu)) = (1 - r) * a / (4 * PI) + r * b / (4 * PI)).
  { intros a b. replace ((a + (1 - 2 * nu) * b) / (8 * PI * (1 - nu))) with (a / (8 * PI) * (1 / (1 - nu)) + b / (8 * PI) * ((1 - 2 * nu) / (1 - nu))) by (field; lra).
    rewrite X1, X2. field. lra. }
  assert (L2 : forall a b, (a + (1 - 2 * nu) * b) / (16 * PI * (1 - nu)) = (1 - r) * a / (8 * PI) + r * b / (8 * PI)).
  { intros a b. replace ((a + (1 - 2 * nu) * b) / (16 * PI * (1 - nu))) with (a / (16 * PI) * (1 / (1 - nu)) + b / (16 * PI) * ((1 - 2 * nu) / (1 - nu))) by (field; lra).
    rewrite X1, X2. field. lra. }
  apply conc_main; auto.
  all: fold r; unfold mura_S, mura_shear, mura_II; rewrite E13; unfold rows, esh_axis, mura_I; cbn [nth Nat.eqb].
  all: clearbody f.
  all: try (match goal with |- (?x - (1 - 2 * nu) * ?b) / _ = _ => replace (x - (1 - 2 * nu) * b) with (x + (1 - 2 * nu) * (- b)) by ring end).
  all: rewrite ?L, ?L2.
  all: try (field; lra).
  all: try (replace (al^2 * (- 2 * PI * (f + 3 * th - 2))) with (- 2 * PI * f) by (rewrite Ef at 1; ring); field; lra).
  - replace (3 * al ^ 2 * ((4 * PI / al ^ 2 - 2 * (-2 * PI * (f + 3 * th - 2))) / 3)) with (4 * PI + 4 * PI * (al^2 * (f + 3 * th - 2))) by (field; lra).
    rewrite <- Ef. field. lra.
  - replace ((1 ^ 2 + al ^ 2) * (-2 * PI * (f + 3 * th - 2))) with (-2 * PI * (al^2 * (f + 3 * th - 2)) + -2 * PI * (f + 3 * th - 2)) by ring.
    rewrite <- Ef. field. lra.
  - replace ((1 ^ 2 + al ^ 2) * (-2 * PI * (f + 3 * th - 2))) with (-2 * PI * (al^2 * (f + 3 * th - 2)) + -2 * PI * (f + 3 * th - 2)) by ring.
    rewrite <- Ef. field. lra.
Qed.
End Conc.

(** ** A finite result has no vanishing denominator *)
Lemma add_fin_inv x y c : fadd x y = Fin c -> (exists a, x = Fin a) /\ exists b, y = Fin b.
Proof. destruct x, y; cbn; try discriminate; eauto. Qed.
Lemma sub_fin_inv x y c : fsub x y = Fin c -> (exists a, x = Fin a) /\ exists b, y = Fin b.
Proof. destruct x, y; cbn; try discriminate; eauto. Qed.
Lemma div_fin_inv x b c : fdiv NumPy x (Fin b) = Fin c -> b <> 0 /\ exists a, x = Fin a.
Proof. destruct x; cbn; destruct (Req_EM_T b 0); try discriminate; try (destruct (Req_EM_T r 0); discriminate); eauto. Qed.
Lemma ret_pair_inv {X Y} (a c : X) (b d : Y) : Ret (a, b) = Ret (c, d) -> a = c /\ b = d.
Proof. intros E. inversion E. auto. Qed.
Lemma bind_ret_inv {B} x (k : fl -> outcome B) v : bind x k = Ret v -> k x = Ret v.
Proof. destruct x; cbn; auto. discriminate. Qed.
Lemma PQ_spheroid_inv m Km Gm Ki Gi al th P Q : Km <> 0 -> Gm <> 0 -> Km + 4/3*Gm <> 0 -> 1 - al^2 <> 0 ->
  let f := al^2 * (3 * th - 2) / (1 - al^2) in
  let A := Gi / Gm - 1 in let B := (Ki / Km - Gi / Gm) / 3 in let r := Gm / (Km + 4/3*Gm) in
  EM_PQ_spheroid (fdiv m) (Fin Km) (Fin Gm) (Fin Ki) (Fin Gi) (Fin al) (Fin th) = Ret (Fin P, Fin Q) ->
  pF2 A B r f th <> 0 /\ pF3 A r f th <> 0 /\ pF4 A r f th <> 0.
Proof.
  intros H1 H2 H3 H4 f A B r. unfold EM_PQ_spheroid.
  repeat (first [fl1 | rewrite fdiv_fin by assumption]; cbv beta). fold A.
  rewrite (fdiv_fin m _ 3) by lra. repeat (fl1; cbv beta). rewrite (fdiv_fin m _ _ H3). rewrite !(fdiv_fin m _ 4) by lra.
  rewrite !(fdiv_fin NumPy _ 2) by lra. repeat (fl1; cbv beta). fold A f B.
  replace (Gm / (Km + 4/3*Gm)) with r by reflexivity.
  clearbody f A B r.
  fold (pF1 A r f th) (pF2 A B r f th) (pF3 A r f th) (pF4 A r f th) (pF5 A B r f th) (pF6 A B r f th) (pF7 A B r f th) (pF8 A B r f th) (pF9 A B r f th).
  generalize (pF1 A r f th) (pF2 A B r f th) (pF3 A r f th) (pF4 A r f th) (pF5 A B r f th) (pF6 A B r f th) (pF7 A B r f th) (pF8 A B r f th) (pF9 A B r f th).
  intros F1 F2 F3 F4 F5 F6 F7 F8 F9 E. apply bind_ret_inv in E. cbv beta in E. apply bind_ret_inv in E. cbv beta in E.
  apply bind_ret_inv in E. cbv beta in E. apply bind_ret_inv in E. cbv beta in E. apply ret_pair_inv in E. destruct E as (EP & EQ).
  apply div_fin_inv in EQ. destruct EQ as (_ & a & EQ). apply sub_fin_inv in EQ. destruct EQ as ((b & EQ) & _).
  apply add_fin_inv in EQ. destruct EQ as ((c & EQ) & d & E4). apply add_fin_inv in EQ. destruct EQ as ((e & EQ) & g & E4').
  apply add_fin_inv in EQ. destruct EQ as (_ & h & E3). apply div_fin_inv in EP. destruct EP as (_ & k & E2).
  apply div_fin_inv in E2, E3, E4'. destruct E2, E3, E4'. auto.
Qed.

(** ** What PQ returns *)
Definition pro_theta (al : R) : R := al / sqrt (al^2 - 1) ^ 3 * (al * sqrt (al^2 - 1) - 1 / cosh al).
Definition pro_f (al : R) : R := al^2 * (3 * pro_theta al - 2) / (1 - al^2).
Lemma pro_unfold m Km Gm Ki Gi al : 1 < al ->
  EM_PQ m Km Gm Ki Gi al = EM_PQ_spheroid (fdiv m) Km Gm Ki Gi (Fin al) (Fin (pro_theta al)).
Proof.
  intros H. unfold EM_PQ. destruct (Req_EM_T al 1); [lra|]. destruct (Rlt_dec al 1); [lra|].
  destruct (theta_prolate m al H) as (th & -> & E). rewrite bind_fin. f_equal. f_equal. rewrite E. unfold pro_theta.
  assert (Q : 0 < al^2 - 1) by nra.
  replace (3/2) with (1 + /2) by field. replace (1/2) with (/2) by field. rewrite Rpower_plus, Rpower_1, Rpower_sqrt by lra.
  replace (sqrt (al^2 - 1) ^ 3) with (sqrt (al^2 - 1) * sqrt (al^2 - 1) * sqrt (al^2 - 1)) by ring. rewrite sqrt_sqrt by lra. reflexivity.
Qed.
Lemma pro_conc m Km Gm Ki Gi al P Q : 0 < Km -> 0 < Gm -> 1 < al ->
  EM_PQ m (Fin Km) (Fin Gm) (Fin Ki) (Fin Gi) al = Ret (Fin P, Fin Q) ->
  concentration (mura_S (2 * PI * pro_theta al) (poisson Km Gm) al) (mura_shear (2 * PI * pro_theta al) (poisson Km Gm) al) Km Gm Ki Gi P Q.
Proof.
  intros HK HG Ha E. rewrite pro_unfold in E by auto. assert (1 - al^2 <> 0) by nra.
  assert (X := E). apply PQ_spheroid_inv in X; try lra. destruct X as (N2 & N3 & N4).
  rewrite PQ_spheroid_eval in E by (lra || auto). injection E as <- <-. apply mura_conc; auto; lra.
Qed.

(** ** Near the sphere *)
From Coquelicot Require Import Coquelicot.
Definition gt1 (a : R) : Prop := 1 < a < 2.
Section Near.
Variables (A B r : R).
Hypotheses (Hr : 0 < r < 3/4) (HA : A <> 0) (HAB : A + 3 * B <> 0).
Let d (a : R) := sqrt (a^2 - 1).
Let u (a : R) := a * (a * d a - 1 / cosh a).
Let v (a : R) := - a^2 * (3 * u a - 2 * d a ^ 3).
Let h := 1 / cosh 1.
Lemma h_pos : 0 < h.
Proof. unfold h, cosh. assert (X := exp_pos 1). assert (Y := exp_pos (Ropp 1)). apply Rdiv_lt_0_compat; lra. Qed.
Lemma d_pos a : gt1 a -> 0 < d a.
Proof. intros (H & _). apply sqrt_lt_R0. nra. Qed.
Lemma pro_u a : gt1 a -> pro_theta a = u a / d a ^ 3.
Proof. intros H. assert (X := d_pos a H). unfold pro_theta, u. fold (d a). generalize (1 / cosh a). intros. field. lra. Qed.
Lemma pro_v a : gt1 a -> pro_f a = v a / d a ^ 5.
Proof.
  intros H. assert (X := d_pos a H). assert (Y := H). destruct Y. unfold pro_f. rewrite pro_u by auto.
  assert (E : 1 - a^2 = - d a ^ 2). { unfold d. rewrite pow2_sqrt; nra. }
  rewrite E. unfold v. field. lra.
Qed.
Lemma lim_d : limit1_in d gt1 0 1.
Proof.
  eapply lim_eq; [apply lim_cont with (F := d)|].
  - unfold d. apply continuity_pt_filterlim. apply (continuous_comp (fun a => a^2 - 1) sqrt).
    + apply (ex_derive_continuous (fun a => a^2 - 1)). auto_derive. auto.
    + apply continuous_sqrt.
  - unfold d. replace (1^2 - 1) with 0 by ring. apply sqrt_0.
Qed.
Lemma lim_u : limit1_in u gt1 (- h) 1.
Proof.
  assert (D := lim_d). assert (I := lim_id gt1 1).
  assert (C : limit1_in cosh gt1 (cosh 1) 1).
  { apply lim_cont with (F := cosh). apply derivable_continuous_pt. apply derivable_pt_cosh. }
  unfold u. eapply lim_eq; [lim|].
  - unfold cosh. assert (X := exp_pos 1). assert (Y := exp_pos (Ropp 1)). lra.
  - unfold h. ring.
Qed.
Lemma lim_v : limit1_in v gt1 (3 * h) 1.
Proof. assert (D := lim_d). assert (I := lim_id gt1 1). assert (U := lim_u). unfold v. eapply lim_eq; [lim|]. ring. Qed.
Let e2 a := d a ^ 6 * (1 + A + B * (3 - 4 * r)) + A * (3/2 * (d a * v a + d a ^ 3 * u a) - r * (3/2 * (d a * v a) + 5/2 * (d a ^ 3 * u a)))
  + A * (A + 3 * B) * (3/2 - 2 * r) * (d a * v a + d a ^ 3 * u a - r * (d a * v a - d a ^ 3 * u a + 2 * u a ^ 2)).
Let e1 a := d a ^ 5 * (1 + 4/3 * A * r) + A * (3/2 * (v a + d a ^ 2 * u a) - r * (3/2 * v a + 5/2 * (d a ^ 2 * u a))).
Let e3 a := d a ^ 5 * (1 + A) + A * (- v a - 3/2 * (d a ^ 2 * u a) + r * (v a + d a ^ 2 * u a)).
Let e4 a := d a ^ 5 + A / 4 * (v a + 3 * (d a ^ 2 * u a) - r * (v a - d a ^ 2 * u a)).
Let e5 a := A * (- v a + r * (v a + d a ^ 2 * u a - 4/3 * d a ^ 5)) + B * (d a ^ 2 * u a) * (3 - 4 * r).
Let e6 a := d a ^ 5 * (1 + A + B * (3 - 4 * r)) + A * (v a - r * (v a + d a ^ 2 * u a)) - B * (d a ^ 2 * u a) * (3 - 4 * r).
Let e7 a := 2 * d a ^ 5 + A / 4 * (3 * v a + 9 * (d a ^ 2 * u a) - r * (3 * v a + 5 * (d a ^ 2 * u a))) + B * (d a ^ 2 * u a) * (3 - 4 * r).
Let e8 a := d a ^ 5 * (A * (1 - 2 * r) + B * (3 - 4 * r)) + A * (v a / 2 * (r - 1) + d a ^ 2 * u a / 2 * (5 * r - 3)) - B * (d a ^ 2 * u a) * (3 - 4 * r).
Let e9 a := A * ((r - 1) * v a - r * (d a ^ 2 * u a)) + B * (d a ^ 2 * u a) * (3 - 4 * r).
Lemma es a : gt1 a -> let f := pro_f a in let th := pro_theta a in
  pF2 A B r f th = e2 a / d a ^ 6 /\ pF1 A r f th = e1 a / d a ^ 5 /\ pF3 A r f th = e3 a / d a ^ 5 /\ pF4 A r f th = e4 a / d a ^ 5 /\
  pF5 A B r f th = e5 a / d a ^ 5 /\ pF6 A B r f th = e6 a / d a ^ 5 /\ pF7 A B r f th = e7 a / d a ^ 5 /\ pF8 A B r f th = e8 a / d a ^ 5 /\ pF9 A B r f th = e9 a / d a ^ 5.
Proof.
  intros H f th. unfold f, th. rewrite pro_u, pro_v by auto. assert (X := d_pos a H).
  unfold pF1, pF2, pF3, pF4, pF5, pF6, pF7, pF8, pF9, e1, e2, e3, e4, e5, e6, e7, e8, e9. generalize dependent (d a). intros. repeat split; field; lra.
Qed.
Lemma near_nonzero (F : R -> R) l : limit1_in F gt1 l 1 -> l <> 0 -> exists eta, 0 < eta /\ forall a, gt1 a -> a < 1 + eta -> F a <> 0.
Proof.
  intros H N. destruct (H (Rabs l)) as (eta & He & Q); [apply Rabs_pos_lt; auto|]. exists eta. split; [exact He|].
  intros a Ha Hl E. assert (X : Rabs (F a - l) < Rabs l).
  { apply Q. split; [exact Ha|]. cbn. unfold R_dist. destruct Ha. rewrite Rabs_right; lra. }
  rewrite E in X. replace (0 - l) with (- l) in X by ring. rewrite Rabs_Ropp in X. lra.
Qed.
Lemma near_sphere : (exists eta, 0 < eta /\ forall a, gt1 a -> a < 1 + eta -> let f := pro_f a in let th := pro_theta a in
    pF2 A B r f th <> 0 /\ pF3 A r f th <> 0 /\ pF4 A r f th <> 0) /\
  limit1_in (fun a => pqP A B r (pro_f a) (pro_theta a)) gt1 0 1 /\ limit1_in (fun a => pqQ A B r (pro_f a) (pro_theta a)) gt1 0 1.
Proof.
  assert (D := lim_d). assert (U := lim_u). assert (V := lim_v). assert (Hh := h_pos).
  assert (L2 : limit1_in e2 gt1 (A * (A + 3 * B) * (3/2 - 2 * r) * (- r * (2 * h ^ 2))) 1) by (unfold e2; eapply lim_eq; [lim|ring]).
  assert (L1 : limit1_in e1 gt1 (A * (9/2 * h) * (1 - r)) 1) by (unfold e1; eapply lim_eq; [lim|field]).
  assert (L3 : limit1_in e3 gt1 (A * (3 * h) * (r - 1)) 1) by (unfold e3; eapply lim_eq; [lim|ring]).
  assert (L4 : limit1_in e4 gt1 (A / 4 * (3 * h) * (1 - r)) 1) by (unfold e4; eapply lim_eq; [lim|field]).
  assert (L5 : limit1_in e5 gt1 (A * (3 * h) * (r - 1)) 1) by (unfold e5; eapply lim_eq; [lim|ring]).
  assert (L6 : limit1_in e6 gt1 (A * (3 * h) * (1 - r)) 1) by (unfold e6; eapply lim_eq; [lim|ring]).
  assert (L7 : limit1_in e7 gt1 (A / 4 * (9 * h) * (1 - r)) 1) by (unfold e7; eapply lim_eq; [lim|field]).
  assert (L8 : limit1_in e8 gt1 (A * (3 * h) / 2 * (r - 1)) 1) by (unfold e8; eapply lim_eq; [lim; lra|field]).
  assert (L9 : limit1_in e9 gt1 (A * (3 * h) * (r - 1)) 1) by (unfold e9; eapply lim_eq; [lim|ring]).
  assert (NZ := Rmult_integral_contrapositive_currified).
  assert (M2 : A * (A + 3 * B) * (3/2 - 2 * r) * (- r * (2 * h ^ 2)) <> 0).
  { assert (0 < h ^ 2) by nra. apply NZ; [apply NZ; [apply NZ; assumption|lra]|]. assert (0 < r * (2 * h ^ 2)) by nra. lra. }
  assert (M3 : A * (3 * h) * (r - 1) <> 0) by (apply NZ; [apply NZ; [assumption|lra]|lra]).
  assert (M4 : A / 4 * (3 * h) * (1 - r) <> 0) by (apply NZ; [apply NZ; [intros E; lra|lra]|lra]).
  destruct (near_nonzero e2 _ L2 M2) as (n2 & P2 & N2). destruct (near_nonzero e3 _ L3 M3) as (n3 & P3 & N3). destruct (near_nonzero e4 _ L4 M4) as (n4 & P4 & N4).
  assert (dn : forall a n, gt1 a -> d a ^ n <> 0) by (intros a n Ha; apply pow_nonzero; assert (X := d_pos a Ha); lra).
  split; [|split].
  - exists (Rmin n2 (Rmin n3 n4)). split; [repeat apply Rmin_pos; assumption|]. intros a Ha Hl f th.
    assert (Q1 := Rmin_l n2 (Rmin n3 n4)). assert (Q2 := Rmin_r n2 (Rmin n3 n4)). assert (Q3 := Rmin_l n3 n4). assert (Q4 := Rmin_r n3 n4).
    unfold f, th. destruct (es a Ha) as (-> & _ & -> & -> & _).
    repeat split; apply Rmult_integral_contrapositive_currified; try (apply Rinv_neq_0_compat; apply dn; exact Ha); [apply N2|apply N3|apply N4]; auto; lra.
  - apply lim_ext with (fun a => d a * (e1 a / e2 a)).
    + eapply lim_eq; [lim; exact M2|]. ring.
    + intros a Ha. assert (X := d_pos a Ha). destruct (es a Ha) as (E2 & E1 & _). unfold pqP. rewrite E1, E2.
      destruct (Req_EM_T (e2 a) 0) as [Z|Z].
      * rewrite Z. unfold Rdiv. rewrite Rmult_0_l, Rinv_0. ring.
      * field. split; lra.
  - apply lim_ext with (fun a => (2 * d a ^ 5 / e3 a + d a ^ 5 / e4 a + d a * ((e4 a * e5 a + e6 a * e7 a - e8 a * e9 a) / (e2 a * e4 a))) / 5).
    + eapply lim_eq; [lim; try exact M3; try exact M4; try lra|].
      * apply Rmult_integral_contrapositive_currified; assumption.
      * field. repeat split; try assumption; try lra. all: auto.
    + intros a Ha. assert (X := d_pos a Ha). destruct (es a Ha) as (E2 & _ & E3 & E4 & E5 & E6 & E7 & E8 & E9). unfold pqQ. rewrite E2, E3, E4, E5, E6, E7, E8, E9.
      clear E2 E3 E4 E5 E6 E7 E8 E9.
      assert (I1 : forall c e, c / (e / d a ^ 5) = c * d a ^ 5 / e).
      { intros c e. unfold Rdiv. rewrite Rinv_mult, Rinv_inv. ring. }
      rewrite !I1. f_equal. f_equal; [f_equal; unfold Rdiv; ring|].
      unfold Rdiv. rewrite !Rinv_mult, !Rinv_inv. generalize (/ e2 a) (/ e4 a). intros. field. lra.
Qed.
End Near.

(** ** Eshelby's integral *)
Lemma atan_le x : 0 <= x -> atan x <= x.
Proof.
  intros H. enough (0 <= x - atan x) by lra.
  apply (mono0_ (fun t => t - atan t) (fun t => 1 - / (1 + t^2)) x); [exact H|rewrite atan_0; ring| |].
  - intros c _. apply is_derive_Reals. auto_derive; [auto|]. field. nra.
  - intros c _. assert (/ (1 + c^2) <= / 1) by (apply Rinv_le_contravar; nra). rewrite Rinv_1 in H0. lra.
Qed.
Lemma decay (F : R -> R) L C : 0 < C -> (forall s, 0 <= s -> Rabs (F s - L) <= C / sqrt (1 + s)) ->
  forall e, 0 < e -> exists M, forall s, M < s -> Rabs (F s - L) < e.
Proof.
  intros HC H e He. exists (Rmax 0 ((C / e)^2)). intros s Hs. assert (X := Rmax_l 0 ((C / e)^2)). assert (Y := Rmax_r 0 ((C / e)^2)).
  apply Rle_lt_trans with (1 := H s ltac:(lra)).
  assert (0 < C / e) by (apply Rdiv_lt_0_compat; lra).
  assert (C / e < sqrt (1 + s)). { rewrite <- (sqrt_pow2 (C / e)) by lra. apply sqrt_lt_1_alt. split; [nra|lra]. }
  assert (0 < sqrt (1 + s)) by lra. apply div_lt_iff; [assumption|].
  apply Rmult_lt_reg_r with (/ e); [apply Rinv_0_lt_compat; lra|]. replace (e * sqrt (1 + s) * / e) with (sqrt (1 + s)) by (field; lra). exact H1.
Qed.
Lemma eshelby_unique al x y : 0 < al -> eshelby_integral al x -> eshelby_integral al y -> x = y.
Proof.
  intros Ha (F & L & D & HL & ->) (F' & L' & D' & HL' & ->).
  assert (C : forall s, 0 < s -> F s - F' s = F 0 - F' 0).
  { intros s Hs. destruct (MVT_cor2 (fun t => F t - F' t) (fun t => 0) 0 s Hs) as (c & E & _).
    - intros c (Hc & _). replace 0 with (2 * PI * al / ((1 + c)^2 * sqrt (al^2 + c)) - 2 * PI * al / ((1 + c)^2 * sqrt (al^2 + c))) by ring.
      apply derivable_pt_lim_minus; auto.
    - lra. }
  apply cond_eq. intros e He. destruct (HL (e/2)) as (M & HM); [lra|]. destruct (HL' (e/2)) as (M' & HM'); [lra|].
  set (s := Rmax 0 (Rmax M M') + 1). assert (X := Rmax_l 0 (Rmax M M')). assert (Y := Rmax_r 0 (Rmax M M')). assert (Z := Rmax_l M M'). assert (W := Rmax_r M M').
  assert (A := HM s ltac:(unfold s; lra)). assert (B := HM' s ltac:(unfold s; lra)). assert (E := C s ltac:(unfold s; lra)).
  replace (L - F 0 - (L' - F' 0)) with (- (F s - L) + (F' s - L')) by lra.
  apply Rle_lt_trans with (1 := Rabs_triang _ _). rewrite Rabs_Ropp. lra.
Qed.
Lemma sq_between al s : 0 < al -> 0 <= s -> 0 < sqrt (1 + s) /\ 0 < sqrt (al^2 + s) /\
  sqrt (1 + s) * sqrt (1 + s) = 1 + s /\ sqrt (al^2 + s) * sqrt (al^2 + s) = al^2 + s.
Proof. intros. assert (0 < al^2) by nra. repeat split; try apply sqrt_lt_R0; try apply sqrt_sqrt; lra. Qed.

Lemma oblate_integral al : 0 < al < 1 -> eshelby_integral al (esh_I1 al).
Proof.
  intros (H0 & H1). assert (PP := PI_RGT_0). assert (Q : 0 < 1 - al^2) by nra.
  set (d := sqrt (1 - al^2)). assert (Hd : 0 < d) by (apply sqrt_lt_R0; lra).
  assert (Ed : d^2 = 1 - al^2) by (apply pow2_sqrt; lra).
  exists (fun s => 2 * PI * al / d^2 * (sqrt (al^2 + s) / (1 + s) + atan (sqrt (al^2 + s) / d) / d)), (2 * PI * al / d^2 * (PI / 2 / d)).
  split; [|split].
  - intros s Hs. destruct (sq_between al s H0 Hs) as (W1 & W2 & W3 & W4). assert (0 < al^2) by nra. apply is_derive_Reals. auto_derive.
    + repeat split; try lra. 
    + replace (sqrt (al * (al * 1) + s)) with (sqrt (al^2 + s)) by (f_equal; ring). set (v := sqrt (al^2 + s)) in *.
      assert (Es : 1 + s = d^2 + v * v) by lra. rewrite Es. field. repeat split; nra.
  - apply decay with (C := 2 * PI * al / d^2 * (1 + 1 / al)).
    { assert (0 < 1 / al) by (apply Rdiv_lt_0_compat; lra). apply Rmult_lt_0_compat; [|lra]. apply Rdiv_lt_0_compat; nra. }
    intros s Hs. destruct (sq_between al s H0 Hs) as (W1 & W2 & W3 & W4). set (v := sqrt (al^2 + s)) in *. set (w := sqrt (1 + s)) in *.
    assert (Hvw : v <= w) by (apply sqrt_le_1_alt; nra). assert (Hwv : al * w <= v) by (apply Rsqr_incr_0_var; [unfold Rsqr; nra|lra]).
    assert (Hx : 0 < v / d) by (apply Rdiv_lt_0_compat; lra).
    assert (EA : PI / 2 - atan (v / d) = atan (d / v)).
    { rewrite <- atan_inv by exact Hx. f_equal. field. lra. }
    assert (A1 : 0 <= d / v) by (left; apply Rdiv_lt_0_compat; lra). assert (A2 := atan_le _ A1).
    assert (A3 : 0 <= atan (d / v)). { destruct A1 as [A1|<-]; [left; rewrite <- atan_0; apply atan_increasing; exact A1|rewrite atan_0; lra]. }
    assert (D0 : 0 < 2 * PI * al / d^2) by (apply Rdiv_lt_0_compat; nra).
    replace (2 * PI * al / d^2 * (v / (1 + s) + atan (v / d) / d) - 2 * PI * al / d^2 * (PI / 2 / d))
      with (2 * PI * al / d^2 * (v / (1 + s) - atan (d / v) / d)) by (rewrite <- EA; field; lra).
    rewrite Rabs_mult, (Rabs_right (2 * PI * al / d^2)) by lra.
    replace (2 * PI * al / d^2 * (1 + 1 / al) / w) with (2 * PI * al / d^2 * (1 / w + 1 / (al * w))) by (field; repeat split; lra).
    apply Rmult_le_compat_l; [lra|].
    assert (B1 : 0 <= v / (1 + s) <= 1 / w).
    { split; [left; apply Rdiv_lt_0_compat; lra|]. rewrite <- W3. apply div_le_iff; [nra|]. replace (1 / w * (w * w)) with w by (field; lra). exact Hvw. }
    assert (B2 : 0 <= atan (d / v) / d <= 1 / (al * w)).
    { split; [apply Rmult_le_pos; [lra|left; apply Rinv_0_lt_compat; lra]|].
      apply Rle_trans with (d / v / d); [apply Rmult_le_compat_r; [left; apply Rinv_0_lt_compat; lra|lra]|].
      replace (d / v / d) with (/ v) by (field; lra). unfold Rdiv. rewrite Rmult_1_l. apply Rinv_le_contravar; nra. }
    apply Rabs_le. lra.
  - replace (sqrt (al^2 + 0)) with al by (rewrite Rplus_0_r, sqrt_pow2; lra).
    unfold esh_I1. fold d. rewrite acos_atan by exact H0. unfold Rsqr. replace (1 - al * al) with (1 - al^2) by ring. fold d.
    replace (atan (d / al)) with (PI / 2 - atan (al / d)).
    + field. lra.
    + assert (Hx : 0 < al / d) by (apply Rdiv_lt_0_compat; lra). rewrite <- atan_inv by exact Hx. f_equal. field. lra.
Qed.
Lemma sphere_integral : eshelby_integral 1 (4 * PI / 3).
Proof.
  assert (PP := PI_RGT_0).
  exists (fun s => - (4 * PI / 3) / ((1 + s) * sqrt (1 + s))), 0. split; [|split].
  - intros s Hs. destruct (sq_between 1 s ltac:(lra) Hs) as (W1 & W2 & W3 & W4). apply is_derive_Reals. auto_derive.
    + repeat split; try lra. apply Rgt_not_eq. apply Rmult_lt_0_compat; lra.
    + replace (1^2 + s) with (1 + s) by ring. set (w := sqrt (1 + s)) in *. rewrite <- W3. field. lra.
  - apply decay with (C := 4 * PI / 3); [lra|]. intros s Hs. destruct (sq_between 1 s ltac:(lra) Hs) as (W1 & _). set (w := sqrt (1 + s)) in *.
    replace (- (4 * PI / 3) / ((1 + s) * w) - 0) with (- (4 * PI / 3 / w * / (1 + s))) by (field; lra). rewrite Rabs_Ropp.
    assert (0 < 4 * PI / 3 / w) by (apply Rdiv_lt_0_compat; lra). assert (0 < / (1 + s) <= 1).
    { split; [apply Rinv_0_lt_compat; lra|]. rewrite <- Rinv_1. apply Rinv_le_contravar; lra. }
    rewrite Rabs_right by nra. nra.
  - rewrite Rplus_0_r, sqrt_1. field.
Qed.
Definition arccosh (x : R) : R := ln (x + sqrt (x^2 - 1)).
Lemma prolate_integral al : 1 < al -> eshelby_integral al (2 * PI * al * (al * sqrt (al^2 - 1) - arccosh al) / sqrt (al^2 - 1) ^ 3).
Proof.
  intros H1. assert (PP := PI_RGT_0). assert (Q : 0 < al^2 - 1) by nra. unfold arccosh.
  set (d := sqrt (al^2 - 1)). assert (Hd : 0 < d) by (apply sqrt_lt_R0; lra).
  assert (Ed : d^2 = al^2 - 1) by (apply pow2_sqrt; lra).
  exists (fun s => - (2 * PI * al / d^2) * (sqrt (al^2 + s) / (1 + s) - ln ((sqrt (al^2 + s) + d) / (sqrt (al^2 + s) - d)) / (2 * d))), 0.
  split; [|split].
  - intros s Hs. destruct (sq_between al s ltac:(lra) Hs) as (W1 & W2 & W3 & W4). assert (0 < al^2) by nra.
    assert (Hv : d < sqrt (al^2 + s)) by (apply sqrt_lt_1_alt; lra).
    apply is_derive_Reals. auto_derive.
    + replace (sqrt (al * (al * 1) + s)) with (sqrt (al^2 + s)) by (f_equal; ring). repeat split; try lra. apply Rdiv_lt_0_compat; lra.
    + replace (sqrt (al * (al * 1) + s)) with (sqrt (al^2 + s)) by (f_equal; ring). set (v := sqrt (al^2 + s)) in *.
      assert (Es : 1 + s = v * v - d^2) by lra. rewrite Es. field. repeat split; try lra; nra.
  - apply decay with (C := 2 * PI * al / d^2 * (al + 2 * al)).
    { apply Rmult_lt_0_compat; [|lra]. apply Rdiv_lt_0_compat; nra. }
    intros s Hs. destruct (sq_between al s ltac:(lra) Hs) as (W1 & W2 & W3 & W4). 
    assert (Hv : d < sqrt (al^2 + s)) by (apply sqrt_lt_1_alt; lra).
    set (v := sqrt (al^2 + s)) in *. set (w := sqrt (1 + s)) in *.
    assert (Hvw : v <= al * w) by (apply Rsqr_incr_0_var; [unfold Rsqr; nra|nra]).
    assert (D0 : 0 < 2 * PI * al / d^2) by (apply Rdiv_lt_0_compat; nra).
    assert (Es : (v - d) * (v + d) = w * w) by nra.
    replace (- (2 * PI * al / d^2) * (v / (1 + s) - ln ((v + d) / (v - d)) / (2 * d)) - 0)
      with (2 * PI * al / d^2 * - (v / (1 + s) - ln ((v + d) / (v - d)) / (2 * d))) by ring.
    rewrite Rabs_mult, (Rabs_right (2 * PI * al / d^2)), Rabs_Ropp by lra.
    replace (2 * PI * al / d^2 * (al + 2 * al) / w) with (2 * PI * al / d^2 * (al / w + 2 * al / w)) by (field; repeat split; lra).
    apply Rmult_le_compat_l; [lra|].
    assert (B1 : 0 <= v / (1 + s) <= al / w).
    { split; [left; apply Rdiv_lt_0_compat; lra|]. rewrite <- W3. apply div_le_iff; [nra|]. replace (al / w * (w * w)) with (al * w) by (field; lra). exact Hvw. }
    assert (E1 : (v + d) / (v - d) = 1 + 2 * d / (v - d)) by (field; lra).
    assert (P1 : 0 < 2 * d / (v - d)) by (apply Rdiv_lt_0_compat; lra).
    assert (E2 : 2 * d / (v - d) = 2 * d * (v + d) / (w * w)) by (rewrite <- Es; field; repeat split; lra).
    assert (L1 : 0 <= ln ((v + d) / (v - d)) <= 2 * d / (v - d)).
    { rewrite E1. split.
      - rewrite <- ln_1. left. apply ln_increasing; lra.
      - left. apply Rlt_le_trans with (ln (exp (2 * d / (v - d)))); [|rewrite ln_exp; lra]. apply ln_increasing; [lra|]. apply exp_ineq1. lra. }
    assert (B2 : 0 <= ln ((v + d) / (v - d)) / (2 * d) <= 2 * al / w).
    { split; [apply Rmult_le_pos; [lra|left; apply Rinv_0_lt_compat; lra]|]. apply div_le_iff; [lra|]. apply Rle_trans with (1 := proj2 L1). rewrite E2.
      apply div_le_iff; [nra|]. replace (2 * al / w * (2 * d) * (w * w)) with (2 * d * (2 * (al * w))) by (field; lra). apply Rmult_le_compat_l; lra. }
    apply Rabs_le. lra.
  - replace (sqrt (al^2 + 0)) with al by (rewrite Rplus_0_r, sqrt_pow2; lra).
    assert (al > d) by nra.
    assert (E : ln ((al + d) / (al - d)) = 2 * ln (al + d)).
    { replace ((al + d) / (al - d)) with ((al + d) * (al + d)); [rewrite ln_mult by lra; ring|].
      apply Rmult_eq_reg_r with (al - d); [|lra]. replace ((al + d) / (al - d) * (al - d)) with (al + d) by (field; lra). nra. }
    rewrite E. field. lra.
Qed.
Lemma wrong_theta al : 1 < al -> (eshelby_integral al (2 * PI * pro_theta al) <-> ln (al + sqrt (al^2 - 1)) * cosh al = 1).
Proof.
  intros H. assert (Q : 0 < al^2 - 1) by nra. assert (Hd : 0 < sqrt (al^2 - 1)) by (apply sqrt_lt_R0; lra). assert (PP := PI_RGT_0).
  assert (C : 0 < cosh al). { unfold cosh. assert (X := exp_pos al). assert (Y := exp_pos (- al)). lra. }
  assert (T := prolate_integral al H). unfold arccosh in T. unfold pro_theta. set (d := sqrt (al^2 - 1)) in *. set (l := ln (al + d)) in *.
  split.
  - intros E. assert (X := eshelby_unique al _ _ ltac:(lra) E T). 
    assert (Y : l = 1 / cosh al).
    { apply (f_equal (fun x => x * (d^3 / (2 * PI * al)))) in X.
      replace (2 * PI * (al / d^3 * (al * d - 1 / cosh al)) * (d^3 / (2 * PI * al))) with (al * d - 1 / cosh al) in X by (field; repeat split; lra).
      replace (2 * PI * al * (al * d - l) / d^3 * (d^3 / (2 * PI * al))) with (al * d - l) in X by (field; repeat split; lra). lra. }
    rewrite Y. field. lra.
  - intros E. assert (Y : l = 1 / cosh al) by (rewrite <- E; field; lra). rewrite Y in T.
    replace (2 * PI * (al / d^3 * (al * d - 1 / cosh al))) with (2 * PI * al * (al * d - 1 / cosh al) / d^3) by (field; split; lra). exact T.
Qed.
Lemma cosh_lo x : 0 <= x -> 1 + x^2 / 2 <= cosh x.
Proof.
  intros H. enough (0 <= cosh x - 1 - x^2 / 2) by lra.
  apply (mono0_ (fun t => cosh t - 1 - t^2 / 2) (fun t => sinh t - t) x); [exact H|rewrite cosh_0; field| |].
  - intros c _. replace (sinh c - c) with (sinh c - 0 - c) by ring. apply derivable_pt_lim_minus; [apply derivable_pt_lim_minus; [apply derivable_pt_lim_cosh|apply derivable_pt_lim_const]|].
    apply is_derive_Reals. auto_derive; [auto|]. field.
  - intros c (Hc & _). apply (mono0_ (fun t => sinh t - t) (fun t => cosh t - 1) c); [exact Hc|rewrite sinh_0; ring| |].
    + intros t _. apply derivable_pt_lim_minus; [apply derivable_pt_lim_sinh|apply derivable_pt_lim_id].
    + intros t _. unfold cosh. assert (X := exp_pos t). rewrite exp_Ropp. set (y := exp t) in *.
      replace ((y + / y) / 2 - 1) with ((y - 1)^2 * / (2 * y)) by (field; lra).
      apply Rmult_le_pos; [apply pow2_ge_0|]. left. apply Rinv_0_lt_compat. lra.
Qed.
Lemma wrong_theta_elongated al : 3/2 <= al -> ln (al + sqrt (al^2 - 1)) * cosh al <> 1.
Proof.
  intros H. assert (C := cosh_lo al ltac:(lra)). assert (9/4 <= al^2) by nra. assert (cosh al > 2) by lra.
  assert (S1 : 1 <= sqrt (al^2 - 1)) by (apply Rle_trans with (sqrt 1); [rewrite sqrt_1; lra|apply sqrt_le_1_alt; lra]).
  assert (L : 1/2 < ln (al + sqrt (al^2 - 1))).
  { rewrite <- (ln_exp (1/2)). apply ln_increasing; [apply exp_pos|]. apply Rlt_le_trans with 2; [|lra].
    assert (X := exp_pos (1/2)). assert (E : exp (1/2) * exp (1/2) = exp 1) by (rewrite <- exp_plus; f_equal; lra). assert (Y := exp_le_3). nra. }
  nra.
Qed.
Lemma pro_near m Km Gm Ki Gi : 0 < Km -> 0 < Gm -> Ki <> Km -> Gi <> Gm -> exists P Q : R -> R, exists eta, 0 < eta /\
  (forall al, 1 < al < 1 + eta -> EM_PQ m (Fin Km) (Fin Gm) (Fin Ki) (Fin Gi) al = Ret (Fin (P al), Fin (Q al))) /\
  limit1_in P (fun al => 1 < al < 2) 0 1 /\ limit1_in Q (fun al => 1 < al < 2) 0 1.
Proof.
  intros HK HG NK NG. set (A := Gi / Gm - 1). set (B := (Ki / Km - Gi / Gm) / 3). set (r := Gm / (Km + 4/3*Gm)).
  assert (Hr : 0 < r < 3/4). { unfold r. split; [apply Rdiv_lt_0_compat; lra|]. apply div_lt_iff; lra. }
  assert (HA : A <> 0). { unfold A. intros E. apply NG. apply Rmult_eq_reg_r with (/ Gm); [|apply Rinv_neq_0_compat; lra]. unfold Rdiv in E. rewrite Rinv_r by lra. lra. }
  assert (HAB : A + 3 * B <> 0).
  { replace (A + 3 * B) with (Ki / Km - 1) by (unfold A, B; field; lra). intros E. apply NK. apply Rmult_eq_reg_r with (/ Km); [|apply Rinv_neq_0_compat; lra]. unfold Rdiv in E. rewrite Rinv_r by lra. lra. }
  destruct (near_sphere A B r Hr HA HAB) as ((eta & He & N) & LP & LQ).
  exists (fun a => pqP A B r (pro_f a) (pro_theta a)), (fun a => pqQ A B r (pro_f a) (pro_theta a)), (Rmin 1 eta).
  split; [apply Rmin_pos; lra|]. split; [|split; [exact LP|exact LQ]].
  intros al (H1 & H2). assert (X := Rmin_l 1 eta). assert (Y := Rmin_r 1 eta). rewrite pro_unfold by exact H1.
  destruct (N al ltac:(split; lra) ltac:(lra)) as (N2 & N3 & N4). assert (1 - al^2 <> 0) by nra.
  apply PQ_spheroid_eval; lra || assumption.
Qed.
