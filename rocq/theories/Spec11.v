(** * Specification notions for the figures of QI.py (C70-C72). *)
From Verif Require Import Fl.
Open Scope R_scope.

(** A density relative to its maximum, with values below 1e-4 shown as nothing. *)
Definition shown (M d : R) : R := if Rlt_dec (d / M) (1/10000) then 0 else d / M.
(** A dry rock of the template: frame moduli and porosity, with a mineral of bulk modulus K0. *)
Definition dry_rock (K0 : R) (r : R * R * R) : Prop :=
  let '(Kd, Gd, phi) := r in 0 <= Kd < K0 /\ 0 < Gd /\ 0 < phi <= 1.
Definition rock_fl (r : R * R * R) : fl * fl * fl := let '(Kd, Gd, phi) := r in (Fin Kd, Fin Gd, Fin phi).
