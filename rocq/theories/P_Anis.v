(** * Property theorems about Anisotropy.py (C05, C55-C58). *)
From Coq Require Import Permutation.
From Verif Require Import Fl M_Utils M_Anis Spec L_Utils L_Anis L_Bond L_Thomsen.
Open Scope R_scope.

(** C05: velocities of a VTI medium at 0, 45 and 90 degrees give back its stiffness matrix. *)
Theorem C05_velocities_to_stiffness :
  forall c11 c33 c13 c44 c66,
  exists C, utils_write_VTI_matrix (Fin c11) (Fin c33) (Fin c13) (Fin c44) (Fin c66) = Ret (finmat C) /\
  forall m den, pos_def C -> 0 < den -> c44 <= c11 -> c44 <= c33 -> 0 <= c13 + c44 ->
  exists vp0 vsh0 vsv0 vp45 vsh45 vsv45 vp90 vsh90 vsv90,
    Anis_vel_azi_VTI m (finmat C) (Fin den) (Fin 0) = Ret (Fin vp0, Fin vsh0, Fin vsv0) /\
    Anis_vel_azi_VTI m (finmat C) (Fin den) (Fin 45) = Ret (Fin vp45, Fin vsh45, Fin vsv45) /\
    Anis_vel_azi_VTI m (finmat C) (Fin den) (Fin 90) = Ret (Fin vp90, Fin vsh90, Fin vsv90) /\
    vsh0 = vsv0 /\
    utils_v_to_c_VTI (Fin vp0) (Fin vp45) (Fin vp90) (Fin vsh0) (Fin vsh90) (Fin den) = Ret (finmat C).
Proof. exact v_to_c_package. Qed.
Print Assumptions C05_velocities_to_stiffness.
(** A VTI matrix that meets the hypotheses of C05 and C57. *)
Example C05_nonvacuous :
  exists C, utils_write_VTI_matrix (Fin 40) (Fin 30) (Fin 12) (Fin 8) (Fin 10) = Ret (finmat C) /\
    pos_def C /\ 8 <= 40 /\ 8 <= 30 /\ 0 <= 12 + 8.
Proof. eexists. split; [apply write_VTI_eval|]. split; [apply vti_posdef; lra | lra]. Qed.

(** C55: Thomsen's velocities are the first-order Taylor expansion (in the strength [t] of the
    anisotropy) of the exact phase velocities, and the reported parameters are the ones that
    generate the medium. Velocities of [Thomsen] are in m/s, those of [vel_azi_VTI] in km/s. *)
Theorem C55_thomsen_first_order :
  forall m M G rho th e g d, 0 < G -> G < M -> 0 < rho ->
  exists (C : R -> rmat) (c11 c13 c66 vp vsh vsv : R -> R) p' sh' sv' eta,
    0 < eta /\
    derivable_pt_lim vp 0 p' /\ derivable_pt_lim vsh 0 sh' /\ derivable_pt_lim vsv 0 sv' /\
    forall t, Rabs t < eta ->
      utils_write_VTI_matrix (Fin (c11 t)) (Fin M) (Fin (c13 t)) (Fin G) (Fin (c66 t)) = Ret (finmat (C t)) /\
      Anis_vel_azi_VTI m (finmat (C t)) (Fin rho) (Fin th) = Ret (Fin (vp t), Fin (vsh t), Fin (vsv t)) /\
      Anis_Thomsen m (Fin (c11 t)) (Fin M) (Fin (c13 t)) (Fin G) (Fin (c66 t)) (Fin rho) (Fin th)
      = Ret (Fin (1000 * (vp 0 + t * p')), Fin (1000 * (vsv 0 + t * sv')), Fin (1000 * (vsh 0 + t * sh')),
             Fin (t * e), Fin (t * g), Fin (t * d)).
Proof. exact Thomsen_first_order. Qed.
Print Assumptions C55_thomsen_first_order.
Theorem C55_thomsen_isotropic :
  forall m K G den th, 0 < K -> 0 < G -> 0 < den ->
  exists vp vs, utils_V m (Fin K) (Fin G) (Fin den) = Ret (Fin vp, Fin vs) /\
    Anis_Thomsen m (Fin (K + 4/3*G)) (Fin (K + 4/3*G)) (Fin (K - 2/3*G)) (Fin G) (Fin G) (Fin den) (Fin th)
    = Ret (Fin vp, Fin vs, Fin vs, Fin 0, Fin 0, Fin 0).
Proof. exact Thomsen_isotropic. Qed.
Print Assumptions C55_thomsen_isotropic.
(** Orthorhombic parameters of a VTI medium are Thomsen's in both vertical planes. *)
Theorem C55_tsvankin_reduces_to_thomsen :
  forall m c11 c33 c13 c44 c66 den th,
  0 < c33 -> 0 < c44 -> 0 < den -> c33 <> c44 -> c11 <> 0 -> c11 <> c66 ->
  exists vp vsv vsh eps gam del,
    Anis_Thomsen m (Fin c11) (Fin c33) (Fin c13) (Fin c44) (Fin c66) (Fin den) (Fin th)
      = Ret (Fin vp, Fin vsv, Fin vsh, Fin eps, Fin gam, Fin del) /\
    Anis_Thomsen_Tsvankin m (Fin c11) (Fin c11) (Fin c33) (Fin (c11 - 2 * c66)) (Fin c13) (Fin c13)
      (Fin c44) (Fin c44) (Fin c66)
      = Ret (Fin eps, Fin del, Fin gam, Fin eps, Fin del, Fin gam, Fin 0).
Proof. exact Tsvankin_VTI. Qed.
Print Assumptions C55_tsvankin_reduces_to_thomsen.
(** The seven parameters for general orthorhombic constants. *)
Theorem C55_tsvankin_parameters :
  forall m c11 c22 c33 c12 c13 c23 c44 c55 c66,
  c33 <> 0 -> c44 <> 0 -> c55 <> 0 -> c11 <> 0 -> c33 <> c44 -> c33 <> c55 -> c11 <> c66 ->
  Anis_Thomsen_Tsvankin m (Fin c11) (Fin c22) (Fin c33) (Fin c12) (Fin c13) (Fin c23)
    (Fin c44) (Fin c55) (Fin c66) =
  Ret (Fin ((c22 - c33) / (2 * c33)), Fin (((c23 + c44)^2 - (c33 - c44)^2) / (2 * c33 * (c33 - c44))),
       Fin ((c66 - c55) / (2 * c55)), Fin ((c11 - c33) / (2 * c33)),
       Fin (((c13 + c55)^2 - (c33 - c55)^2) / (2 * c33 * (c33 - c55))),
       Fin ((c66 - c44) / (2 * c44)),
       Fin (((c12 + c66)^2 - (c11 - c66)^2) / (2 * c11 * (c11 - c66)))).
Proof. exact Tsvankin_eval. Qed.
Print Assumptions C55_tsvankin_parameters.
Example C55_nonvacuous : 0 < 8 /\ 8 < 30 /\ 0 < 2.5 /\ 30 <> 8 /\ 40 <> 0 /\ 40 <> 10.
Proof. lra. Qed.

(** C56: Backus average. [Backus_of L] calls Backus with the three columns of the layer list. *)
Notation Backus_of L := (Anis_Backus (map (fun x => Fin (lv x)) L)
  (map (fun x => Fin (ll x)) L) (map (fun x => Fin (lg x)) L)).
(** The five constants are the response of the layered medium: same s33 and in-plane strain in
    every layer give the averaged e33 and s11; same s23 gives the averaged shear strain; same
    in-plane shear strain gives the averaged stress. *)
Theorem C56_backus_is_layered_response :
  forall L, good_layers L ->
  exists c11 c33 c13 c44 c66,
    Backus_of L = Ret (Fin c11, Fin c33, Fin c13, Fin c44, Fin c66) /\
    (forall s33 e11 e22,
       s33 = c13 * (e11 + e22) + c33 * avg (lay_e33 s33 e11 e22) L /\
       avg (lay_s11 s33 e11 e22) L
         = c11 * e11 + (c11 - 2 * c66) * e22 + c13 * avg (lay_e33 s33 e11 e22) L) /\
    (forall s23, avg (fun x => s23 / lg x) L = s23 / c44) /\
    (forall g12, avg (fun x => lg x * g12) L = c66 * g12).
Proof. exact Backus_mech. Qed.
Print Assumptions C56_backus_is_layered_response.
Theorem C56_backus_homogeneous :
  forall L lam G, L <> [] -> good_layers L -> Forall (fun x => ll x = lam /\ lg x = G) L ->
  Backus_of L = Ret (Fin (lam + 2*G), Fin (lam + 2*G), Fin lam, Fin G, Fin G).
Proof. exact Backus_homogeneous. Qed.
Print Assumptions C56_backus_homogeneous.
Theorem C56_backus_layer_order :
  forall L L', good_layers L -> Permutation L L' -> Backus_of L = Backus_of L'.
Proof. exact Backus_perm. Qed.
Print Assumptions C56_backus_layer_order.
Theorem C56_backus_split_layer :
  forall L1 L2 v1 v2 l g, 0 <= v1 -> 0 <= v2 -> good_layers (L1 ++ (v1 + v2, l, g) :: L2) ->
  Backus_of (L1 ++ (v1 + v2, l, g) :: L2) = Backus_of (L1 ++ (v1, l, g) :: (v2, l, g) :: L2).
Proof. exact Backus_split. Qed.
Print Assumptions C56_backus_split_layer.
Theorem C56_backus_thickness_scale :
  forall L k, 0 < k -> good_layers L ->
  Backus_of (map (fun x => (k * lv x, ll x, lg x)) L) = Backus_of L.
Proof. exact Backus_scale. Qed.
Print Assumptions C56_backus_thickness_scale.
Theorem C56_backus_shear_order :
  forall L, good_layers L ->
  exists c11 c33 c13 c44 c66,
    Backus_of L = Ret (Fin c11, Fin c33, Fin c13, Fin c44, Fin c66) /\ 0 < c44 <= c66.
Proof. exact Backus_C44_le_C66. Qed.
Print Assumptions C56_backus_shear_order.
(** Stable layers (positive bulk modulus) give a stable effective medium. *)
Theorem C56_backus_stable :
  forall L, good_layers L -> Forall (fun x => 0 < 3 * ll x + 2 * lg x) L ->
  exists c11 c33 c13 c44 c66 C,
    Backus_of L = Ret (Fin c11, Fin c33, Fin c13, Fin c44, Fin c66) /\
    utils_write_VTI_matrix (Fin c11) (Fin c33) (Fin c13) (Fin c44) (Fin c66) = Ret (finmat C) /\
    pos_def C.
Proof. exact Backus_stable_package. Qed.
Print Assumptions C56_backus_stable.
(** Well logs: thickness from consecutive depths, moduli from velocities and density, and the
    thickness-weighted density. *)
Theorem C56_backus_log :
  forall top L, good_layers (map log_layer L) ->
  exists c11 c33 c13 c44 c66,
    Backus_of (map log_layer L) = Ret (Fin c11, Fin c33, Fin c13, Fin c44, Fin c66) /\
    Anis_Backus_log (map (fun x => Fin (l_vp x)) L) (map (fun x => Fin (l_vs x)) L)
      (map (fun x => Fin (l_den x)) L) (map Fin (depths top L))
    = Ret (Fin c11, Fin c33, Fin c13, Fin c44, Fin c66,
           Fin (sumf (fun x => l_t x * l_den x) L / sumf l_t L)).
Proof. exact Backus_log_eval. Qed.
Print Assumptions C56_backus_log.
(** A common shift of all depths changes nothing. *)
Theorem C56_backus_log_depth_shift :
  forall vp vs den z k,
  Anis_Backus_log vp vs den (map Fin (map (Rplus k) z)) = Anis_Backus_log vp vs den (map Fin z).
Proof. exact Backus_log_shift. Qed.
Print Assumptions C56_backus_log_depth_shift.
Example C56_nonvacuous :
  let L := [(1, 5, 4); (2, 10, 8); (0, 3, 3)] in
  good_layers L /\ Forall (fun x => 0 < 3 * ll x + 2 * lg x) L /\
  good_layers (map log_layer [{| l_t := 1; l_vp := 3; l_vs := 1.5; l_den := 2.3 |};
                              {| l_t := 2; l_vp := 4; l_vs := 2; l_den := 2.5 |}]).
Proof.
  cbv zeta. unfold good_layers, sumf, log_layer, lv, ll, lg; simpl.
  repeat match goal with |- _ /\ _ => split | |- Forall _ (_ :: _) => apply Forall_cons
    | |- Forall _ [] => apply Forall_nil end; simpl; lra.
Qed.

(** C57: the three velocities are the square roots of the Christoffel eigenvalues over density;
    the SH velocity belongs to the mode polarised along axis 2. *)
Theorem C57_vti_phase_velocities :
  forall c11 c33 c13 c44 c66,
  exists C, utils_write_VTI_matrix (Fin c11) (Fin c33) (Fin c13) (Fin c44) (Fin c66) = Ret (finmat C) /\
  forall m den az, pos_def C -> 0 < den ->
  exists vp vsh vsv,
    Anis_vel_azi_VTI m (finmat C) (Fin den) (Fin az) = Ret (Fin vp, Fin vsh, Fin vsv) /\
    phase_velocities C den (dir13 (rad az)) vp vsh vsv /\ vsv <= vp /\
    den * vsh^2 = christoffel C (dir13 (rad az)) 1 1.
Proof. exact vti_vel_package. Qed.
Print Assumptions C57_vti_phase_velocities.
(** HTI: direction in the horizontal plane, measured from the symmetry axis; the last velocity
    belongs to the mode polarised along the vertical. *)
Theorem C57_hti_phase_velocities :
  forall c11 c33 c13 c44 c55,
  exists C, utils_write_HTI_matrix (Fin c11) (Fin c33) (Fin c13) (Fin c44) (Fin c55) = Ret (finmat C) /\
  forall m den az, pos_def C -> 0 < den ->
  exists vp vsh vsv,
    Anis_vel_azi_HTI m (finmat C) (Fin den) (Fin az) = Ret (Fin vp, Fin vsh, Fin vsv) /\
    phase_velocities C den (dir12 (rad az)) vp vsh vsv /\ vsh <= vp /\
    den * vsv^2 = christoffel C (dir12 (rad az)) 2 2.
Proof. exact hti_vel_package. Qed.
Print Assumptions C57_hti_phase_velocities.

(** C58: the Bond transformation is not a rotation: it changes isotropic matrices. *)
Theorem C58_bond_preserves_isotropy_refuted :
  ~ (forall m K G th axis C, (axis = 3 \/ axis = 1)%Z -> 0 < K -> 0 < G ->
     utils_write_iso m (Fin K) (Fin G) = Ret (finmat C) ->
     Anis_Bond_trans (finmat C) (Fin th) axis = Ret (finmat C)).
Proof. exact Bond_iso_refuted. Qed.
Print Assumptions C58_bond_preserves_isotropy_refuted.
(** Size of the defect, for every isotropic matrix and angle. *)
Theorem C58_bond_isotropic_defect :
  forall m K G th,
  exists C C3 C1, utils_write_iso m (Fin K) (Fin G) = Ret (finmat C) /\
    Anis_Bond_trans (finmat C) (Fin th) 3 = Ret (finmat C3) /\
    Anis_Bond_trans (finmat C) (Fin th) 1 = Ret (finmat C1) /\
    C3 0%nat 0%nat = C 0%nat 0%nat - 3/4 * G * sin (2 * rad th)^2 /\
    C1 2%nat 2%nat = C 2%nat 2%nat - 3/4 * G * sin (2 * rad th)^2.
Proof. exact Bond_iso_defect. Qed.
Print Assumptions C58_bond_isotropic_defect.
(** It is a rotation of every stiffness exactly at the multiples of a quarter turn (note the opposite
    senses about axes 3 and 1). *)
Theorem C58_bond_is_rotation_only_at_quarter_turns :
  forall th,
  ((forall C, exists C', Anis_Bond_trans (finmat C) (Fin th) 3 = Ret (finmat C') /\ rotates_to (rot3 (- rad th)) C C') <-> sin (2 * rad th) = 0) /\
  ((forall C, exists C', Anis_Bond_trans (finmat C) (Fin th) 1 = Ret (finmat C') /\ rotates_to (rot1 (rad th)) C C') <-> sin (2 * rad th) = 0).
Proof. intros th. split; apply Bond_rotation_iff; auto. Qed.
Print Assumptions C58_bond_is_rotation_only_at_quarter_turns.
(** What it returns at every angle, from every matrix: the rotated tensor, except that in each normal component every
    mixed pair of axes counts half. *)
Theorem C58_bond_formula :
  forall C th, exists C3 C1,
  Anis_Bond_trans (finmat C) (Fin th) 3 = Ret (finmat C3) /\ Anis_Bond_trans (finmat C) (Fin th) 1 = Ret (finmat C1) /\
  forall i j k l, (i < 3)%nat -> (j < 3)%nat -> (k < 3)%nat -> (l < 3)%nat ->
  tensor C3 i j k l = sum3 (fun p => sum3 (fun q => sum3 (fun r => sum3 (fun s => let Q := rot3 (- rad th) in
    bond_weight i j p q * bond_weight k l r s * (Q i p * Q j q * Q k r * Q l s * tensor C p q r s))))) /\
  tensor C1 i j k l = sum3 (fun p => sum3 (fun q => sum3 (fun r => sum3 (fun s => let Q := rot1 (rad th) in
    bond_weight i j p q * bond_weight k l r s * (Q i p * Q j q * Q k r * Q l s * tensor C p q r s))))).
Proof. exact Bond_formula. Qed.
Print Assumptions C58_bond_formula.
(** Both sides occur: 90 degrees and 45 degrees. *)
Example C58_quarter_turn_nonvacuous : sin (2 * rad 90) = 0 /\ sin (2 * rad 45) <> 0.
Proof.
  unfold rad. replace (2 * (90 * PI / 180)) with PI by field. replace (2 * (45 * PI / 180)) with (PI / 2) by field.
  rewrite sin_PI, sin_PI2. split; lra.
Qed.
(** No rotation at angle 0, symmetry kept, and an error for any other axis. *)
Theorem C58_bond_zero_angle :
  forall C axis, (axis = 3 \/ axis = 1)%Z -> Anis_Bond_trans (finmat C) (Fin 0) axis = Ret (finmat C).
Proof. exact Bond_zero. Qed.
Print Assumptions C58_bond_zero_angle.
Theorem C58_bond_symmetric :
  forall C th axis, (axis = 3 \/ axis = 1)%Z -> symmetric C ->
  exists C', Anis_Bond_trans (finmat C) (Fin th) axis = Ret (finmat C') /\ symmetric C'.
Proof. exact Bond_symmetric. Qed.
Print Assumptions C58_bond_symmetric.
Theorem C58_bond_other_axis_raises :
  forall C th axis, (axis <> 3)%Z -> (axis <> 1)%Z ->
  Anis_Bond_trans C (Fin th) axis = Raise UnboundLocalError.
Proof. exact Bond_axis_error. Qed.
Print Assumptions C58_bond_other_axis_raises.
