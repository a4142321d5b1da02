(** * Spec10: the stresses of a sphere pack along a loading path. *)
From Verif Require Import Fl Spec3.
From Coquelicot Require Import Coquelicot.
Open Scope R_scope.

(** Norris and Johnson's theory: the pack is loaded to the hydrostatic compression [a] and the uniaxial
    compression [b]. A contact whose direction makes an angle of cosine [x] with the axis is shortened by
    [a + b x^2]; its normal force goes as the power 3/2 of that, and its tangential stiffness as the square
    root. The tangential displacement grows with the uniaxial part only, so the tangential force depends on the
    order of loading. [t] runs along the path. *)
Inductive nj_path := Together | UniIso | IsoUni.
Definition nj_tangential (p : nj_path) (a b x : R) : R :=
  match p with
  | Together => RInt (fun t => 3/2 * sqrt (t * a + t * b * x^2) * b) 0 1   (* both strains in proportion *)
  | UniIso => RInt (fun t => 3/2 * sqrt (t * b * x^2) * b) 0 1             (* the uniaxial strain first *)
  | IsoUni => RInt (fun t => 3/2 * sqrt (a + t * b * x^2) * b) 0 1         (* the hydrostatic strain first *)
  end.
Definition nj_normal (a b x : R) : R := (a + b * x^2) * sqrt (a + b * x^2).
(** Contact stiffness constants. *)
Definition nj_Cn (K0 G0 : R) : R := 4 * G0 / (1 - poisson K0 G0).
Definition nj_Ct (K0 G0 : R) : R := 8 * G0 / (2 - poisson K0 G0).
(** Average over all directions of the force along the axis, and across it. *)
Definition nj_sigma33 (p : nj_path) (K0 G0 n phi a b : R) : R :=
  - ((1 - phi) * n / (2 * PI)) *
    (nj_Cn K0 G0 * RInt (fun x => x^2 * nj_normal a b x) 0 1
     + nj_Ct K0 G0 * RInt (fun x => x^2 * (1 - x^2) * nj_tangential p a b x) 0 1).
(** The normal forces' share across the axis. *)
Definition nj_across (a b : R) : R := RInt (fun x => (1 - x^2) * nj_normal a b x) 0 1.
Definition nj_sigma11 (p : nj_path) (K0 G0 n phi a b : R) : R :=
  - ((1 - phi) * n / (4 * PI)) *
    (nj_Cn K0 G0 * nj_across a b
     - nj_Ct K0 G0 * RInt (fun x => x^2 * (1 - x^2) * nj_tangential p a b x) 0 1).
(** How the code spells the three paths. *)
Definition nj_name (p : nj_path) : string :=
  match p with Together => "together" | UniIso => "uni_iso" | IsoUni => "iso-uni" end.
