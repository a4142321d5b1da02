(** * Spec12: Eshelby's tensor of a spheroid of any aspect ratio, from Eshelby's integral. *)
From Verif Require Import Fl Spec Spec7.
Open Scope R_scope.

(** I1 of the spheroid with semi-axes (1, 1, al) is the integral over s from 0 to infinity of
    2 pi al / ((1 + s)^2 sqrt (al^2 + s)); stated with a primitive [F] and its limit [L] at infinity. *)
Definition eshelby_integral (al I1 : R) : Prop :=
  exists (F : R -> R) (L : R),
    (forall s, 0 <= s -> derivable_pt_lim F s (2 * PI * al / ((1 + s)^2 * sqrt (al^2 + s)))) /\
    (forall e, 0 < e -> exists M, forall s, M < s -> Rabs (F s - L) < e) /\
    I1 = L - F 0.

(** The tensor as a function of I1 (Mura): S_iijj and S_ijij. *)
Definition mura_I (I1 : R) (i : nat) : R := nth i [I1; I1; 4*PI - 2 * I1] 0.
Definition mura_II (I1 al : R) (i j : nat) : R :=
  let I13 := (mura_I I1 0 - mura_I I1 2) / (al^2 - 1) in
  let I12 := PI - I13 / 4 in
  let I33 := (4*PI / al^2 - 2 * I13) / 3 in
  rows [[I12; I12; I13]; [I12; I12; I13]; [I13; I13; I33]] i j.
Definition mura_S (I1 nu al : R) (i j : nat) : R :=
  (if Nat.eqb i j
   then 3 * esh_axis al j ^ 2 * mura_II I1 al i j + (1 - 2*nu) * mura_I I1 i
   else esh_axis al j ^ 2 * mura_II I1 al i j - (1 - 2*nu) * mura_I I1 i) / (8 * PI * (1 - nu)).
Definition mura_shear (I1 nu al : R) (i j : nat) : R :=
  ((esh_axis al i ^ 2 + esh_axis al j ^ 2) * mura_II I1 al i j + (1 - 2*nu) * (mura_I I1 i + mura_I I1 j))
  / (16 * PI * (1 - nu)).
