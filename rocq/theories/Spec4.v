(** * Spec4: specification notions that use Riemann integrals. *)
From Verif Require Import Fl Spec3.
From Coquelicot Require Import Coquelicot.
Open Scope R_scope.

(** Norris and Johnson's theory of a sphere pack (grain moduli [K0], [G0], [n] contacts per grain) under a
    hydrostatic strain [e] plus a uniaxial strain [e3], with [al^2 = e/e3]. *)
Definition nj_I (k : nat) (al : R) : R := RInt (fun x => x^k * sqrt (al^2 + x^2)) 0 1.
Definition nj_gamma (K0 G0 n phi e : R) : R :=
  let nu := poisson K0 G0 in
  3/32 * (4 * G0 / (1 - nu)) * (8 * G0 / (2 - nu)) * n * (1 - phi) * sqrt (- e).
Definition nj_B (K0 G0 : R) : R := (1 - poisson K0 G0) / (2 * PI * G0).
Definition nj_C (K0 G0 : R) : R := poisson K0 G0 / (2 * PI * G0).
Section NJ.
Variables (K0 G0 n phi e al : R).
Let g := nj_gamma K0 G0 n phi e / al.
Let B := nj_B K0 G0.
Let C := nj_C K0 G0.
Definition nj_C11 : R := g * (2 * B * (nj_I 0 al - nj_I 2 al) + 3/4 * C * (nj_I 0 al - 2 * nj_I 2 al + nj_I 4 al)).
Definition nj_C33 : R := g * (4 * B * nj_I 2 al + 2 * C * nj_I 4 al).
Definition nj_C13 : R := g * C * (nj_I 2 al - nj_I 4 al).
Definition nj_C44 : R := g * (B / 2 * (nj_I 0 al + nj_I 2 al) + C * (nj_I 2 al - nj_I 4 al)).
Definition nj_C66 : R := g * (B * (nj_I 0 al - nj_I 2 al) + C / 4 * (nj_I 0 al - 2 * nj_I 2 al + nj_I 4 al)).
End NJ.
