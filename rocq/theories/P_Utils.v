(** * Property theorems about utils.py (C01-C04, C06). *)
From Verif Require Import Fl M_Utils Spec L_Utils.
Open Scope R_scope.

(** C01: moduli -> velocities -> moduli, units included. *)
Theorem C01_velocity_moduli_roundtrip :
  forall m K G rho, 0 < rho -> 0 <= K + 4/3*G -> 0 <= G ->
  exists vp vs,
    utils_V m (Fin K) (Fin G) (Fin rho) = Ret (Fin vp, Fin vs) /\ 0 <= vp /\ 0 <= vs /\
    utils_M_from_V m (Fin rho) (Fin vp) (Fin vs) = Ret (Fin K, Fin G).
Proof. exact V_M_roundtrip. Qed.
Print Assumptions C01_velocity_moduli_roundtrip.
Example C01_nonvacuous : 0 < 2.65 /\ 0 <= 37 + 4/3*44 /\ 0 <= 44.
Proof. lra. Qed.

(** C01: divided by 1000 they are the speeds of plane waves in every direction: P polarised along it, two S across. *)
Theorem C01_velocities_are_plane_wave_speeds :
  forall m K G rho, 0 < rho -> 0 <= K + 4/3*G -> 0 <= G ->
  exists vp vs C, utils_V m (Fin K) (Fin G) (Fin rho) = Ret (Fin vp, Fin vs) /\ utils_write_iso m (Fin K) (Fin G) = Ret (finmat C) /\
  forall n, sum3 (fun i => n i^2) = 1 -> phase_velocities C rho n (vp / 1000) (vs / 1000) (vs / 1000) /\
    (forall i, (i < 3)%nat -> sum3 (fun k => christoffel C n i k * n k) = rho * (vp / 1000)^2 * n i) /\
    (forall u, sum3 (fun k => u k * n k) = 0 -> forall i, (i < 3)%nat -> sum3 (fun k => christoffel C n i k * u k) = rho * (vs / 1000)^2 * u i).
Proof. exact V_plane_waves. Qed.
Print Assumptions C01_velocities_are_plane_wave_speeds.

(** C01, the other direction. *)
Theorem C01_moduli_velocity_roundtrip :
  forall m vp vs rho, 0 < rho -> 0 <= vp -> 0 <= vs ->
  exists K G,
    utils_M_from_V m (Fin rho) (Fin vp) (Fin vs) = Ret (Fin K, Fin G) /\
    utils_V m (Fin K) (Fin G) (Fin rho) = Ret (Fin vp, Fin vs).
Proof. exact M_V_roundtrip. Qed.
Print Assumptions C01_moduli_velocity_roundtrip.

(** C02: Poisson ratio of a solid with positive moduli. *)
Theorem C02_poisson_range :
  forall m K G, 0 < K -> 0 < G ->
  exists nu, utils_poi m (Fin K) (Fin G) = Ret (Fin nu) /\
    -1 < nu < 1/2 /\ K = 2*G*(1+nu)/(3*(1-2*nu)).
Proof. exact poi_facts. Qed.
Print Assumptions C02_poisson_range.
Theorem C02_poisson_from_velocities :
  forall m K G rho, 0 < K -> 0 < G -> 0 < rho ->
  exists nu vp vs, utils_poi m (Fin K) (Fin G) = Ret (Fin nu) /\
    utils_V m (Fin K) (Fin G) (Fin rho) = Ret (Fin vp, Fin vs) /\
    nu = (vp^2 - 2*vs^2) / (2*(vp^2 - vs^2)).
Proof. exact poi_velocity. Qed.
Print Assumptions C02_poisson_from_velocities.
(** Error branch: 3K+G = 0. *)
Theorem C02_poisson_undefined :
  forall m K G, 3*K + G = 0 ->
  utils_poi PyFloat (Fin K) (Fin G) = Raise ZeroDivisionError /\
  forall r, utils_poi m (Fin K) (Fin G) <> Ret (Fin r).
Proof. exact poi_zero. Qed.
Print Assumptions C02_poisson_undefined.
Theorem C02_lame_constant :
  forall m K G, utils_lame m (Fin K) (Fin G) = Ret (Fin (K - 2*G/3)).
Proof. exact lame_eval. Qed.
Print Assumptions C02_lame_constant.
Example C02_nonvacuous : 0 < 37 /\ 0 < 44 /\ 3 * 1 + -3 = 0.
Proof. lra. Qed.

(** C03: symmetry class of the matrix writers. *)
Theorem C03_vti_matrix_class :
  forall c11 c33 c13 c44 c66,
  exists C, utils_write_VTI_matrix (Fin c11) (Fin c33) (Fin c13) (Fin c44) (Fin c66) = Ret (finmat C)
    /\ symmetric C /\ transversely_isotropic 2 C
    /\ C 0%nat 0%nat = c11 /\ C 2%nat 2%nat = c33 /\ C 0%nat 2%nat = c13
    /\ C 3%nat 3%nat = c44 /\ C 5%nat 5%nat = c66
    /\ (forall i j, (i < 6)%nat -> (3 <= j < 6)%nat -> i <> j -> C i j = 0).
Proof. exact write_VTI_class. Qed.
Print Assumptions C03_vti_matrix_class.
Theorem C03_hti_matrix_class :
  forall c11 c33 c13 c44 c55,
  exists C, utils_write_HTI_matrix (Fin c11) (Fin c33) (Fin c13) (Fin c44) (Fin c55) = Ret (finmat C)
    /\ symmetric C /\ transversely_isotropic 0 C
    /\ C 0%nat 0%nat = c11 /\ C 2%nat 2%nat = c33 /\ C 0%nat 2%nat = c13
    /\ C 3%nat 3%nat = c44 /\ C 4%nat 4%nat = c55
    /\ (forall i j, (i < 6)%nat -> (3 <= j < 6)%nat -> i <> j -> C i j = 0).
Proof. exact write_HTI_class. Qed.
Print Assumptions C03_hti_matrix_class.
Theorem C03_iso_matrix_class :
  forall m K G,
  exists C, utils_write_iso m (Fin K) (Fin G) = Ret (finmat C)
    /\ is_isotropic K G C /\ (forall Q, orthogonal Q -> invariant Q C).
Proof. exact write_iso_class. Qed.
Print Assumptions C03_iso_matrix_class.
Theorem C03_ti_matrices_of_isotropic_constants :
  forall m K G,
  exists C, utils_write_iso m (Fin K) (Fin G) = Ret (finmat C) /\
    utils_write_VTI_matrix (Fin (K + 4/3*G)) (Fin (K + 4/3*G)) (Fin (K - 2/3*G)) (Fin G) (Fin G) = Ret (finmat C) /\
    utils_write_HTI_matrix (Fin (K + 4/3*G)) (Fin (K + 4/3*G)) (Fin (K - 2/3*G)) (Fin G) (Fin G) = Ret (finmat C).
Proof. exact write_VTI_HTI_iso. Qed.
Print Assumptions C03_ti_matrices_of_isotropic_constants.
Theorem C03_vti_hti_exchange_axes :
  forall c11 c33 c13 c44 c66,
  exists Cv Ch,
    utils_write_VTI_matrix (Fin c11) (Fin c33) (Fin c13) (Fin c44) (Fin c66) = Ret (finmat Cv) /\
    utils_write_HTI_matrix (Fin c33) (Fin c11) (Fin c13) (Fin c66) (Fin c44) = Ret (finmat Ch) /\
    rotates_to swap13 Cv Ch.
Proof. exact write_VTI_HTI_swap. Qed.
Print Assumptions C03_vti_hti_exchange_axes.
Theorem C03_general_matrix_entries :
  forall c11 c22 c33 c12 c13 c23 c44 c55 c66,
  exists C, utils_write_matrix (Fin c11) (Fin c22) (Fin c33) (Fin c12) (Fin c13) (Fin c23)
      (Fin c44) (Fin c55) (Fin c66) = Ret (finmat C)
    /\ symmetric C
    /\ (C 0 0 = c11 /\ C 1 1 = c22 /\ C 2 2 = c33 /\ C 0 1 = c12 /\ C 0 2 = c13 /\ C 1 2 = c23
        /\ C 3 3 = c44 /\ C 4 4 = c55 /\ C 5 5 = c66)%nat
    /\ (forall i j, (i < 6)%nat -> (3 <= j < 6)%nat -> i <> j -> C i j = 0).
Proof. exact write_matrix_entries. Qed.
Print Assumptions C03_general_matrix_entries.
(** The rotations about axis 3 (and 1) are orthogonal maps fixing that axis, so the class
    of maps quantified over in C03 is not empty. *)
Example C03_nonvacuous : forall t, (orthogonal (rot3 t) /\ fixes (rot3 t) 2) /\ (orthogonal (rot1 t) /\ fixes (rot1 t) 0).
Proof. intros t; split; [exact (rot3_ortho t) | exact (rot1_ortho t)]. Qed.

(** C04: the compliance writer, fed with entries of the inverse, gives the whole inverse. *)
Theorem C04_compliance_is_inverse :
  forall c11 c33 c13 c44 c66 C S,
  c44 <> 0 -> c66 <> 0 -> (c11 - c66) * c33 - c13^2 <> 0 ->
  utils_write_VTI_matrix (Fin c11) (Fin c33) (Fin c13) (Fin c44) (Fin c66) = Ret (finmat C) ->
  meq6 (mmul C S) ident ->
  utils_write_VTI_compliance (Fin (S 0 0)%nat) (Fin (S 0 1)%nat) (Fin (S 0 2)%nat)
    (Fin (S 2 2)%nat) (Fin (S 3 3)%nat) = Ret (finmat S).
Proof. exact VTI_compliance_of_inverse. Qed.
Print Assumptions C04_compliance_is_inverse.
(** Such an inverse exists whenever the determinants do not vanish (non-vacuity). *)
Theorem C04_inverse_exists :
  forall c11 c33 c13 c44 c66, c44 <> 0 -> c66 <> 0 -> (c11 - c66) * c33 - c13^2 <> 0 ->
  exists s11 s12 s13 s33 s44 S C,
    utils_write_VTI_compliance (Fin s11) (Fin s12) (Fin s13) (Fin s33) (Fin s44) = Ret (finmat S) /\
    utils_write_VTI_matrix (Fin c11) (Fin c33) (Fin c13) (Fin c44) (Fin c66) = Ret (finmat C) /\
    meq6 (mmul C S) ident /\ meq6 (mmul S C) ident.
Proof. exact VTI_compliance_inverse. Qed.
Print Assumptions C04_inverse_exists.
Example C04_nonvacuous : 8 <> 0 /\ 10 <> 0 /\ (40 - 10) * 30 - 12^2 <> 0.
Proof. lra. Qed.

(** C06: crack porosity of penny-shaped cracks. *)
Theorem C06_crack_porosity :
  forall m crd a, utils_crack_por m (Fin crd) (Fin a) = Ret (Fin (4/3 * PI * a * crd)).
Proof. exact crack_por_eval. Qed.
Print Assumptions C06_crack_porosity.
