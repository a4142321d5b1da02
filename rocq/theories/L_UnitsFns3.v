(** * L_UnitsFns3: changes of units for rotations, complex moduli, Brown-Korringa, grain packs with solvers and figures. *)
From Verif Require Import Spec Spec20 Fl Cx M_Utils M_EM M_Anis M_Fluid M_GM M_Perm M_Emp M_AVO M_QI M_Array L_Utils L_Anis L_Fluid1 L_Fluid3 L_Units L_Units2 L_UnitsFns L_UnitsFns2.
Open Scope R_scope.

Section Fns.
Variables (u : units) (m : mode).
Lemma units_Anis_Thomsen_Tsvankin a b c d e f g h i :
  Anis_Thomsen_Tsvankin m (inu u stress a) (inu u stress b) (inu u stress c) (inu u stress d) (inu u stress e) (inu u stress f) (inu u stress g) (inu u stress h) (inu u stress i)
  = Anis_Thomsen_Tsvankin m a b c d e f g h i.
Proof.
  set (in7 := fun t : fl * fl * fl * fl * fl * fl * fl => let '(x1, x2, x3, x4, x5, x6, x7) := t in
    (inu u dless x1, inu u dless x2, inu u dless x3, inu u dless x4, inu u dless x5, inu u dless x6, inu u dless x7)).
  assert (Z : forall o, after in7 o = o) by (intros [((((((x1 & x2) & x3) & x4) & x5) & x6) & x7)| |]; unfold in7; cbn; rewrite ?inu_dless; reflexivity).
  dless Z. unfold Anis_Thomsen_Tsvankin. scs. cbn [after call]. unfold in7. apply f_equal. sceq.
Qed.
(** ** Rotation of the axes *)
Lemma mget_map_seq (f : nat -> nat -> fl) i j : (i < 6)%nat -> (j < 6)%nat -> mget (map (fun i => map (f i) (seq 0 6)) (seq 0 6)) i j = f i j.
Proof. intros Hi Hj. do 6 (destruct i as [|i]; [do 6 (destruct j as [|j]; [reflexivity|]); lia|]). lia. Qed.
Lemma inm_ftab6 d (f g : nat -> nat -> fl) : (forall i j, g i j = inu u d (f i j)) -> ftab6 g = inm u d (ftab6 f).
Proof. intros H. unfold ftab6, inm. rewrite map_map. apply map_ext. intros i. rewrite map_map. apply map_ext, H. Qed.
Lemma sc_matmul_l A C : fmatmul A (inm u stress C) = inm u stress (fmatmul A C).
Proof.
  apply (inm_ftab6 stress (fun i j => fsum6 (fun k => fmul (mget A i k) (mget C k j)))). intros i j. unfold fsum6.
  assert (H : forall k, fmul (mget A i k) (mget (inm u stress C) k j) = inu u stress (fmul (mget A i k) (mget C k j))).
  { intros k. eapply sc_mul; [apply sc_dless|apply sc_mget|dcomp]. }
  repeat apply sc_add; apply H.
Qed.
Lemma sc_matmul_r A C : fmatmul (inm u stress C) A = inm u stress (fmatmul C A).
Proof.
  apply (inm_ftab6 stress (fun i j => fsum6 (fun k => fmul (mget C i k) (mget A k j)))). intros i j. unfold fsum6.
  assert (H : forall k, fmul (mget (inm u stress C) i k) (mget A k j) = inu u stress (fmul (mget C i k) (mget A k j))).
  { intros k. eapply sc_mul; [apply sc_mget|apply sc_dless|dcomp]. }
  repeat apply sc_add; apply H.
Qed.
Lemma units_Anis_Bond_trans C theta axis : Anis_Bond_trans (inm u stress C) theta axis = after (inm u stress) (Anis_Bond_trans C theta axis).
Proof.
  unfold Anis_Bond_trans. eapply (sc_bind0 u); [reflexivity|apply sc_dless|intro t; cbv beta zeta]. rewrite inu_dless.
  destruct (Z.eqb axis 3); [|destruct (Z.eqb axis 1); [|reflexivity]]; rewrite sc_matmul_l, sc_matmul_r; reflexivity.
Qed.
(** ** Fluids *)
Lemma units_Fluid_Mavko_Jizba a b c d K0 rd rf Kf phi :
  Fluid_Mavko_Jizba m (inu u velocity a) (inu u velocity b) (inu u velocity c) (inu u velocity d) (inu u stress K0) (inu u density rd) (inu u density rf) (inu u stress Kf) phi
  = after (in4 u stress stress velocity velocity) (Fluid_Mavko_Jizba m a b c d K0 rd rf Kf phi).
Proof. unfold Fluid_Mavko_Jizba, Fluid_Gassmann, utils_M_from_V, utils_V. scs. Qed.
Lemma units_Fluid_Squirt s h :
  Fluid_Squirt_anisotropic m (in5 u compliance compliance compliance compliance compliance s) (in5 u compliance compliance compliance compliance compliance h)
  = after (inl u compliance) (Fluid_Squirt_anisotropic m s h).
Proof. destruct s as ((((a & b) & c) & d) & e), h as ((((a' & b') & c') & d') & e'). unfold in5, Fluid_Squirt_anisotropic. scs. Qed.
Lemma units_Fluid_Biot jv Kd Gd K0 Kf r0 rf eta phi k a al f :
  Fluid_Biot m jv (inu u stress Kd) (inu u stress Gd) (inu u stress K0) (inu u stress Kf) (inu u density r0) (inu u density rf) (inu u viscosity eta) phi
    (inu u area k) (inu u length_d a) al (inu u frequency f)
  = after (in6 u velocity velocity velocity dless dless dless) (Fluid_Biot m jv Kd Gd K0 Kf r0 rf eta phi k a al f).
Proof.
  unfold Fluid_Biot. do 6 (scstep). eapply (sc_bind0 u) with (d := dless); [reflexivity|sc|intro z; rewrite inu_dless; cbv beta zeta].
  match goal with |- context [match fltb z ?b with Some _ => _ | None => _ end] =>
    match goal with |- context [cmul ?x ?F] => match F with match fltb z b with Some _ => _ | None => _ end => set (FF := F) end end end.
  clearbody FF. scs.
Qed.
Lemma units_Fluid_White Kd Gd K0 phi r0 r1 r2 k1 k2 e1 e2 kap a sg f :
  Fluid_White_Dutta_Ode m (inu u stress Kd) (inu u stress Gd) (inu u stress K0) phi (inu u density r0) (inu u density r1) (inu u density r2) (inu u stress k1) (inu u stress k2)
    (inu u viscosity e1) (inu u viscosity e2) (inu u area kap) (inu u length_d a) sg (inu u frequency f)
  = after (fun '(v, w, K) => (inu u velocity v, inu u (-1, 0, 0)%Q w, inc u stress K)) (Fluid_White_Dutta_Ode m Kd Gd K0 phi r0 r1 r2 k1 k2 e1 e2 kap a sg f).
Proof. unfold Fluid_White_Dutta_Ode, Fluid_Gassmann. cbv zeta. scs. Qed.
End Fns.
