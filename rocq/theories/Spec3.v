(** * Spec3: specification notions for granular media, fluids at reservoir conditions, permeability,
    reflectivity, trends and interpretation. Nothing here refers to the model of the code. *)
From Verif Require Import Fl Cx Spec.
Open Scope R_scope.

(** ** Granular media *)
Definition poisson (K G : R) : R := (3 * K - 2 * G) / (6 * K + 2 * G).
(** Cube of the Hertz-Mindlin bulk modulus of a random pack of identical spheres (moduli [K0], [G0]),
    porosity [phic], [Cn] contacts per grain, confining pressure [P] in the unit of the moduli. *)
Definition hertz_K3 (K0 G0 phic Cn P : R) : R :=
  Cn^2 * (1 - phic)^2 * G0^2 * P / (18 * PI^2 * (1 - poisson K0 G0)^2).
(** Ratio G/K of the pack when a fraction [f] of the contacts resists tangential slip. *)
Definition hertz_GK (K0 G0 f : R) : R :=
  let nu := poisson K0 G0 in 3/5 * ((1 - f) + f * ((5 - 4 * nu) / (2 - nu))).
(** Stiffness contrasts cement/grain of Dvorkin and Nur's cementation theory. *)
Definition lambda_n (K0 G0 Kc Gc : R) : R :=
  2 * Gc * (1 - poisson K0 G0) * (1 - poisson Kc Gc) / (PI * G0 * (1 - 2 * poisson Kc Gc)).
Definition lambda_t (G0 Gc : R) : R := Gc / (PI * G0).
(** Radius of the cement layer over the grain radius, for cement fraction [s]: deposited at the
    contacts (scheme 1) or evenly on the grains (any other value). *)
Definition cement_radius (scheme : Z) (s phic Cn : R) : R :=
  if Z.eqb scheme 1 then 2 * sqrt (sqrt (s / (3 * Cn * (1 - phic)))) else sqrt (2 * s / (3 * (1 - phic))).

(** Normal and tangential stiffness of a cemented contact of scaled radius [a]: Dvorkin and Nur's
    statistical fits, with stiffness contrasts [L] and grain Poisson ratio [n]. *)
Definition dnN1 L := - (24153/1000000) * Rpower L (- (13646/10000)).
Definition dnN2 L := 20405/100000 * Rpower L (- (89008/100000)).
Definition dnN3 L := 24649/100000000 * Rpower L (- (19864/10000)).
Definition dnS L a := dnN1 L * a^2 + dnN2 L * a + dnN3 L.
Definition dnT1 n L := - (1/100) * (226/100 * n^2 + 207/100 * n + 23/10)
                       * Rpower L (79/1000 * n^2 + 1754/10000 * n - 1342/1000).
Definition dnT2 n L := (573/10000 * n^2 + 937/10000 * n + 202/1000)
                       * Rpower L (274/10000 * n^2 + 529/10000 * n - 8765/10000).
Definition dnT3 n L := 1/10000 * (9654/1000 * n^2 + 4945/1000 * n + 31/10)
                       * Rpower L (1867/100000 * n^2 + 4011/10000 * n - 18186/10000).
Definition dnT n L a := dnT1 n L * a^2 + dnT2 n L * a + dnT3 n L.

(** ** Polynomial roots over the complex numbers: what [np.roots] must satisfy. *)
Definition ceval (cs : list R) (x : cx) : cx := fold_left (fun acc c => cadd (cmul acc x) (CFin c 0)) cs (CFin 0 0).
Definition cprod (l : list cx) : cx := fold_right cmul (CFin 1 0) l.
Definition cfinite (z : cx) : Prop := exists u v, z = CFin u v.
Definition roots_ok (np_roots : list fl -> list cx) : Prop :=
  forall c0 cs, c0 <> 0 ->
    let zs := np_roots (map Fin (c0 :: cs)) in
    length zs = length cs /\ Forall cfinite zs /\
    forall x, cfinite x -> ceval (c0 :: cs) x = cmul (CFin c0 0) (cprod (map (csub x) zs)).
(** Digby's contact equation (scaled contact radii): [b] is the radius of the deformed contact, [a] of
    the initial bond, [c] measures the load. *)
Definition digby_radius (a c b : R) : Prop :=
  exists d, 0 < d /\ d^3 + 3/2 * a^2 * d = c /\ 0 < b /\ b^2 = d^2 + a^2.
