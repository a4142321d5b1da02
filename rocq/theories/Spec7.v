(** * Spec7: the strain inside an elastic inclusion (Eshelby's equivalent inclusion). *)
From Verif Require Import Fl Spec.
Open Scope R_scope.

(** Eshelby's tensor of a sphere. *)
Definition sphere_S (nu : R) (i j : nat) : R := (if Nat.eqb i j then 7 - 5 * nu else 5 * nu - 1) / (15 * (1 - nu)).
Definition sphere_shear (nu : R) (i j : nat) : R := (4 - 5 * nu) / (15 * (1 - nu)).

(** An inclusion (Ki, Gi) in an infinite matrix (Km, Gm) with remote normal strains [e0] has the normal strains [e]: the
    matrix material with a transformation strain [es] carries the same stress, and Eshelby's tensor [S] gives the
    disturbance. The same for one shear strain, where [s] is S_ijij. *)
Definition inclusion_strain (S : nat -> nat -> R) (Km Gm Ki Gi : R) (e0 e : nat -> R) : Prop :=
  exists es, forall i, (i < 3)%nat ->
    e i = e0 i + sum3 (fun k => S i k * es k) /\
    sum3 (fun j => iso_normal Ki Gi i j * e j) = sum3 (fun j => iso_normal Km Gm i j * (e j - es j)).
Definition inclusion_shear (s Gm Gi e0 e : R) : Prop := exists es, e = e0 + 2 * s * es /\ 2 * Gi * e = 2 * Gm * (e - es).

(** P and Q are the isotropic parts T_iijj/3 and (T_ijij - T_iijj/3)/5 of the tensor T that takes the remote strain to the
    strain in the inclusion: [E i j] is the normal strain i under a unit remote strain along axis j, [t i j] the shear
    strain under a unit remote shear. T exists and is unique. *)
Definition concentration (S s : nat -> nat -> R) (Km Gm Ki Gi P Q : R) : Prop :=
  exists E t : nat -> nat -> R,
    (forall j, (j < 3)%nat -> forall e, inclusion_strain S Km Gm Ki Gi (axis_dir j) e <-> forall i, (i < 3)%nat -> e i = E i j) /\
    (forall i j, (i < j < 3)%nat -> forall e, inclusion_shear (s i j) Gm Gi 1 e <-> e = t i j) /\
    3 * P = sum3 (fun i => sum3 (fun j => E i j)) /\
    5 * Q = sum3 (fun i => E i i) + (t 0%nat 1%nat + t 0%nat 2%nat + t 1%nat 2%nat) - P.

(** One phase of a composite: volume fraction, moduli, aspect ratio. *)
Record phase := Phase { ph_x : R; ph_K : R; ph_G : R; ph_al : R }.
(** A passive phase of oblate shape (or a sphere). *)
Definition passive (p : phase) : Prop := 0 <= ph_x p /\ 0 <= ph_K p /\ 0 <= ph_G p /\ 0 < ph_al p <= 1.
(** Eshelby's tensor of a spheroid of aspect ratio al (1: sphere). *)
Definition spheroid_S (nu al : R) : nat -> nat -> R := if Req_EM_T al 1 then sphere_S nu else esh_S nu al.
Definition spheroid_shear (nu al : R) : nat -> nat -> R := if Req_EM_T al 1 then sphere_shear nu else esh_shear nu al.
(** The share D of the dry crack's compliance left to a crack filled with fluid: [kap] is the fluid's modulus over the
    aspect ratio, (nu, K) the surrounding medium. *)
Definition crack_share (nu K kap D : R) : Prop := D * (1 + 4 / (3 * PI) * ((1 - nu^2) / (1 - 2 * nu)) * (kap / K)) = 1.
