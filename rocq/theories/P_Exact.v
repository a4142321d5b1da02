(** * P_Exact: exact success and failure sets, geometry of the crack porosity, and uniqueness results that complete
      C02, C06, C11, C20, C50 and C57 *)
From Coq Require Import Reals Lra Lia List String.
From Coquelicot Require Import Coquelicot.
From Verif Require Import Fl RealLemmas Spec Spec15 M_Utils M_EM M_Anis M_AVO L_Exact P_EM.
Import ListNotations.
Open Scope R_scope.

(** ** C02: where [poi] is defined, for moduli of any sign. *)
Theorem C02_poisson_defined :
  forall m K G, 3 * K + G <> 0 ->
  exists nu, utils_poi m (Fin K) (Fin G) = Ret (Fin nu) /\ 2 * (3 * K + G) * nu = 3 * K - 2 * G.
Proof.
  intros m K G N. exists ((3 * K - 2 * G) / (6 * K + 2 * G)). split; [|field; lra].
  unfold utils_poi. rewrite !fmul_fin, fsub_fin, fadd_fin, fdiv_fin by lra. reflexivity.
Qed.
Print Assumptions C02_poisson_defined.
Example C02_defined_nonvacuous : 3 * (-5) + 1 <> 0. Proof. lra. Qed.

(** ** C06: any number of spheroidal cracks of one aspect ratio [a] but any radii, in a rock of volume [V]; [cracks] lists
    the radius and the volume of each. Their porosity is what [crack_por] returns for the crack density (sum of the
    cubed radii) / V. *)
Theorem C06_porosity_of_cracks :
  forall m a V (cracks : list (R * R)), 0 < a -> 0 < V ->
  (forall c v, In (c, v) cracks -> 0 < c /\ spheroid_volume c a v) ->
  utils_crack_por m (Fin (sumf (fun p => fst p ^ 3) cracks / V)) (Fin a) = Ret (Fin (sumf snd cracks / V)).
Proof.
  intros m a V L Ha HV H. unfold utils_crack_por. rewrite !fmul_fin, fdiv_fin by lra. cbn [bind]. reteq.
  assert (E : sumf snd L = 4/3 * PI * a * sumf (fun p => fst p ^ 3) L).
  { clear HV. unfold sumf. induction L as [|(c, v) L IH]; [cbn; ring|].
    cbn [map sumR fst snd]. destruct (H c v (or_introl eq_refl)) as [Hc Hv]. rewrite (spheroid_vol c a v Hc Ha Hv).
    change (fold_right Rplus 0) with sumR in *. 
    rewrite IH by (intros c' v' I; apply H; right; exact I). ring. }
  rewrite E. field. lra.
Qed.
Print Assumptions C06_porosity_of_cracks.
(** Two cracks of radii 1 and 2 and aspect ratio 1/100. *)
Example C06_nonvacuous : forall c v, In (c, v) [(1, 4/3 * PI * (1/100) * 1^3); (2, 4/3 * PI * (1/100) * 2^3)] -> 0 < c /\ spheroid_volume c (1/100) v.
Proof. intros c v [E|[E|[]]]; injection E as <- <-; (split; [lra | apply spheroid_vol_ex; lra]). Qed.

(** ** C11: only one of the two moduli equal. *)
Theorem C11_hs_equal_shear_python_raises :
  forall f K1 K2 G bound,
  EM_HS PyFloat (Fin f) (Fin K1) (Fin K2) (Fin G) (Fin G) bound = Raise ZeroDivisionError.
Proof. exact HS_equal_shear_py. Qed.
Print Assumptions C11_hs_equal_shear_python_raises.
Theorem C11_hs_one_equal_numpy :
  (forall f K G1 G2, 0 < K -> 0 < G1 -> 0 < G2 -> G1 <> G2 -> 0 <= f <= 1 ->
     EM_HS NumPy (Fin f) (Fin K) (Fin K) (Fin G1) (Fin G2) "upper" = Ret (Fin K, Fin (walpole (zG K G1) f G1 G2)) /\
     forall bound, bound <> "upper"%string ->
     EM_HS NumPy (Fin f) (Fin K) (Fin K) (Fin G1) (Fin G2) bound = Ret (Fin K, Fin (walpole (zG K G2) f G1 G2))) /\
  (forall f K1 K2 G bound, 0 < K1 -> 0 < K2 -> 0 < G -> K1 <> K2 -> 0 <= f <= 1 ->
     EM_HS NumPy (Fin f) (Fin K1) (Fin K2) (Fin G) (Fin G) bound = Ret (Fin (walpole (zK G) f K1 K2), Fin G)).
Proof.
  split; [|exact HS_equal_shear_np]. intros f K G1 G2 HK H1 H2 N Hf. split.
  - exact (HS_equal_bulk_np f K G1 G2 "upper" HK H1 H2 N Hf).
  - intros bound B. rewrite (HS_equal_bulk_np f K G1 G2 bound HK H1 H2 N Hf). destruct (String.eqb_spec bound "upper"); [contradiction | reflexivity].
Qed.
Print Assumptions C11_hs_one_equal_numpy.

(** ** C20: below one half porosity the equations have exactly one positive solution, the one the iteration converges to;
    from one half on they have none. *)
Theorem C20_sc_unique_solution :
  forall m Ks Gs phi, 0 < Ks -> 0 < Gs -> 0 <= phi ->
  let solution a b := 0 < a /\ 0 < b /\ 1 / a = 1 / Ks + (1 / a + 3 / (4 * b)) * phi /\
                      1 / b = 1 / Gs + (15 * a + 20 * b) / (9 * a + 8 * b) * phi / b in
  (phi < 1/2 -> exists k g a b,
     (forall n, EM_SC m (Fin phi) (Fin Ks) (Fin Gs) (Z.of_nat n) = Ret (Fin (k n), Fin (g n))) /\ Un_cv k a /\ Un_cv g b /\
     forall a' b', solution a' b' <-> a' = a /\ b' = b) /\
  (1/2 <= phi -> forall a b, ~ solution a b).
Proof.
  intros m Ks Gs phi HK HG Hp solution. split.
  - intros L. destruct (C20_sc_iteration m Ks Gs HK HG) as (k & g & H). destruct (H phi Hp) as (E & _ & _ & _ & _ & _ & _ & _ & C & _).
    destruct (C L) as (a & b & Ca & Cb & Ha & Hb & E1 & E2 & _). exists (k phi), (g phi), a, b. split; [exact E|]. split; [exact Ca|]. split; [exact Cb|].
    intros a' b'. split.
    + intros (Ha' & Hb' & E1' & E2'). apply (sc_pores_unique Ks Gs phi); try lra; split; assumption.
    + intros [-> ->]. repeat split; try lra; assumption.
  - intros L a b (Ha & Hb & E). exact (sc_pores_none Ks Gs phi a b HK HG L Ha Hb E).
Qed.
Print Assumptions C20_sc_unique_solution.
Example C20_unique_nonvacuous : 0 < 37 /\ 0 < 44 /\ 0 <= 1/3 < 1/2. Proof. lra. Qed.

(** ** C50: with NumPy operands two identical layers get a NaN gradient in place of the exception. *)
Theorem C50_abe_numpy_refuted :
  forall vp vs r, 0 < vs -> vs < vp -> 0 < r ->
  AVO_AVO_abe NumPy (Fin vp) (Fin vs) (Fin r) (Fin vp) (Fin vs) (Fin r) = Ret (Fin 0, NaN, Fin 0, Fin 0, Fin 0).
Proof. exact abe_identical_np. Qed.
Print Assumptions C50_abe_numpy_refuted.

(** ** C57: an isotropic medium has the velocities of [V] (in km/s) at every angle. *)
Theorem C57_isotropic_velocities :
  forall m K G rho, 0 <= G -> 0 <= 3 * K + G -> 0 < rho -> exists vp vs C,
  utils_V m (Fin K) (Fin G) (Fin rho) = Ret (Fin (1000 * vp), Fin (1000 * vs)) /\ utils_write_iso m (Fin K) (Fin G) = Ret (finmat C) /\
  forall az, Anis_vel_azi_VTI m (finmat C) (Fin rho) (Fin az) = Ret (Fin vp, Fin vs, Fin vs) /\
             Anis_vel_azi_HTI m (finmat C) (Fin rho) (Fin az) = Ret (Fin vp, Fin vs, Fin vs).
Proof. exact vel_azi_iso_all. Qed.
Print Assumptions C57_isotropic_velocities.
Example C57_isotropic_nonvacuous : 0 <= 44 /\ 0 <= 3 * 37 + 44 /\ 0 < 2.65. Proof. lra. Qed.
