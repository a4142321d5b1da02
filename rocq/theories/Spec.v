(** * Spec: independent specifications used in the property statements.
    Nothing here mentions the model's functions (only the value type of [Fl.v], to say
    "this matrix of results is finite"); everything is plain real analysis and lists. *)
From Verif Require Import Fl.
Open Scope R_scope.

(** ** Weighted means *)
Fixpoint sumR (l : list R) : R := match l with [] => 0 | x :: l => x + sumR l end.
Definition sumf {A} (f : A -> R) (L : list A) : R := sumR (map f L).
(** [wmean ws xs] = sum of w_i x_i. *)
Fixpoint wsum (ws xs : list R) : R :=
  match ws, xs with w :: ws, x :: xs => w * x + wsum ws xs | _, _ => 0 end.
(** Volume fractions: non-negative, summing to one. *)
Definition fractions (ws : list R) : Prop := Forall (fun w => 0 <= w) ws /\ sumR ws = 1.
(** [x] is between the smallest and the largest element of [l] (for the phases present). *)
Definition above_some (l : list R) (x : R) := Exists (fun y => y <= x) l.
Definition below_some (l : list R) (x : R) := Exists (fun y => x <= y) l.
Definition between_some (l : list R) (x : R) := above_some l x /\ below_some l x.

(** ** Hashin-Shtrikman bounds in Walpole's form: the weighted harmonic mean of moduli
    shifted by a constant [z]. *)
Definition walpole (z f a b : R) : R := / (f / (a + z) + (1 - f) / (b + z)) - z.
(** The two shifts, from the reference phase's bulk and shear moduli. *)
Definition zK (G : R) : R := 4 / 3 * G.
Definition zG (K G : R) : R := G / 6 * ((9 * K + 8 * G) / (K + 2 * G)).

(** ** Stiffness matrices and tensors (Voigt notation, indices from 0) *)
Definition rmat := nat -> nat -> R.
Definition tab6 {A} (f : nat -> nat -> A) : list (list A) :=
  map (fun i => map (f i) (seq 0 6)) (seq 0 6).
(** A 6x6 result whose entries are the finite numbers [C i j]. *)
Definition finmat (C : rmat) : list (list fl) := tab6 (fun i j => Fin (C i j)).
Definition sum3 (f : nat -> R) : R := f 0%nat + f 1%nat + f 2%nat.
Definition sum6 (f : nat -> R) : R :=
  f 0%nat + f 1%nat + f 2%nat + f 3%nat + f 4%nat + f 5%nat.
Definition mmul (A B : rmat) : rmat := fun i j => sum6 (fun k => A i k * B k j).
Definition ident : rmat := fun i j => if Nat.eqb i j then 1 else 0.
Definition meq6 (A B : rmat) : Prop := forall i j, (i < 6)%nat -> (j < 6)%nat -> A i j = B i j.
Definition symmetric (A : rmat) : Prop := forall i j, (i < 6)%nat -> (j < 6)%nat -> A i j = A j i.

(** Voigt index of a pair of axes. *)
Definition vgt (i j : nat) : nat :=
  match i, j with
  | 0, 0 => 0 | 1, 1 => 1 | 2, 2 => 2
  | 1, 2 | 2, 1 => 3
  | 0, 2 | 2, 0 => 4
  | _, _ => 5
  end%nat.
(** Fourth-rank stiffness tensor of a Voigt stiffness matrix. *)
Definition tensor (C : rmat) (i j k l : nat) : R := C (vgt i j) (vgt k l).
(** Rotated tensor. [Q] is a 3x3 matrix. *)
Definition rotated (Q : nat -> nat -> R) (C : rmat) (i j k l : nat) : R :=
  sum3 (fun p => sum3 (fun q => sum3 (fun r => sum3 (fun s =>
    Q i p * Q j q * Q k r * Q l s * tensor C p q r s)))).
Definition invariant (Q : nat -> nat -> R) (C : rmat) : Prop :=
  forall i j k l, (i < 3)%nat -> (j < 3)%nat -> (k < 3)%nat -> (l < 3)%nat ->
  rotated Q C i j k l = tensor C i j k l.
(** [C2] is the stiffness matrix of [C1] seen in axes rotated by [Q]. *)
Definition rotates_to (Q : nat -> nat -> R) (C1 C2 : rmat) : Prop :=
  forall i j k l, (i < 3)%nat -> (j < 3)%nat -> (k < 3)%nat -> (l < 3)%nat ->
  rotated Q C1 i j k l = tensor C2 i j k l.

(** Rotations by angle [t] about the coordinate axes. *)
Definition rows (L : list (list R)) (i j : nat) : R := nth j (nth i L []) 0.
Definition rot1 (t : R) := rows [[1; 0; 0]; [0; cos t; - sin t]; [0; sin t; cos t]].
Definition rot2 (t : R) := rows [[cos t; 0; sin t]; [0; 1; 0]; [- sin t; 0; cos t]].
Definition rot3 (t : R) := rows [[cos t; - sin t; 0]; [sin t; cos t; 0]; [0; 0; 1]].
(** Exchange of two coordinate axes (an improper orthogonal map). *)
Definition swap13 := rows [[0; 0; 1]; [0; 1; 0]; [1; 0; 0]].
Definition swap23 := rows [[1; 0; 0]; [0; 0; 1]; [0; 1; 0]].

(** Weight 1/2 of a mixed pair of axes in a normal component (a Bond matrix without its factors 2). *)
Definition bond_weight (i j p q : nat) : R := if (Nat.eqb i j && negb (Nat.eqb p q))%bool then 1/2 else 1.

(** Isotropic elasticity, stated through the tensor:
    C_ijkl = lambda d_ij d_kl + G (d_ik d_jl + d_il d_jk), with K = lambda + 2G/3. *)
Definition kron (i j : nat) : R := if Nat.eqb i j then 1 else 0.
Definition is_isotropic (K G : R) (C : rmat) : Prop :=
  forall i j k l, (i < 3)%nat -> (j < 3)%nat -> (k < 3)%nat -> (l < 3)%nat ->
  tensor C i j k l = (K - 2 * G / 3) * kron i j * kron k l
                     + G * (kron i k * kron j l + kron i l * kron j k).

(** Orthogonal maps, and those that fix coordinate axis [a]. *)
Definition orthogonal (Q : nat -> nat -> R) : Prop :=
  forall i j, (i < 3)%nat -> (j < 3)%nat -> sum3 (fun p => Q i p * Q j p) = kron i j.
Definition fixes (Q : nat -> nat -> R) (a : nat) : Prop :=
  forall i, (i < 3)%nat -> Q i a = kron i a.
(** Transverse isotropy about axis [a]: invariance under every orthogonal map fixing it. *)
Definition transversely_isotropic (a : nat) (C : rmat) : Prop :=
  forall Q, orthogonal Q -> fixes Q a -> invariant Q C.

(** Isotropic part of a stiffness (its average over all orientations), through the two
    linear invariants C_iijj and C_ijij. *)
Definition iso_K (C : rmat) : R :=
  sum3 (fun i => sum3 (fun j => tensor C i i j j)) / 9.
Definition iso_G (C : rmat) : R :=
  (sum3 (fun i => sum3 (fun j => tensor C i j i j)) - 3 * iso_K C) / 10.

(** Quadratic form of a stiffness matrix (twice the strain energy). *)
Definition energy (C : rmat) (e : nat -> R) : R := sum6 (fun i => sum6 (fun j => e i * C i j * e j)).
Definition pos_def (C : rmat) : Prop :=
  forall e, (exists i, (i < 6)%nat /\ e i <> 0) -> 0 < energy C e.

(** ** Christoffel equation *)
Definition christoffel (C : rmat) (n : nat -> R) (i k : nat) : R :=
  sum3 (fun j => sum3 (fun l => tensor C i j k l * n j * n l)).
Definition det3 (A : nat -> nat -> R) : R :=
  A 0%nat 0%nat * (A 1%nat 1%nat * A 2%nat 2%nat - A 1%nat 2%nat * A 2%nat 1%nat)
  - A 0%nat 1%nat * (A 1%nat 0%nat * A 2%nat 2%nat - A 1%nat 2%nat * A 2%nat 0%nat)
  + A 0%nat 2%nat * (A 1%nat 0%nat * A 2%nat 1%nat - A 1%nat 1%nat * A 2%nat 0%nat).
(** The squared velocities [v1 v2 v3], times density, are exactly the three eigenvalues
    (with multiplicity) of the Christoffel matrix in direction [n]. *)
Definition phase_velocities (C : rmat) (rho : R) (n : nat -> R) (v1 v2 v3 : R) : Prop :=
  0 <= v1 /\ 0 <= v2 /\ 0 <= v3 /\
  forall x, det3 (fun i k => christoffel C n i k - x * kron i k)
            = (rho * v1^2 - x) * (rho * v2^2 - x) * (rho * v3^2 - x).
(** Direction at angle [t] from axis 3 in the 1-3 plane / from axis 1 in the 1-2 plane. *)
Definition dir13 (t : R) (i : nat) : R := nth i [sin t; 0; cos t] 0.
Definition dir12 (t : R) (i : nat) : R := nth i [cos t; sin t; 0] 0.
Definition rad (deg : R) : R := deg * PI / 180.

(** ** Layered media *)
Definition layer := (R * R * R)%type.  (* thickness, lambda, G *)
Definition lv (x : layer) := fst (fst x).
Definition ll (x : layer) := snd (fst x).
Definition lg (x : layer) := snd x.
(** Thickness-weighted average over the layers. *)
Definition avg (h : layer -> R) (L : list layer) : R := sumf (fun x => lv x * h x) L / sumf lv L.
(** Non-negative thicknesses (not all zero), positive shear and P-wave moduli. *)
Definition good_layers (L : list layer) : Prop :=
  Forall (fun x => 0 <= lv x) L /\ 0 < sumf lv L /\ Forall (fun x => 0 < lg x) L /\
  Forall (fun x => 0 < ll x + 2 * lg x) L.
(** Layered medium loaded with the same s33 and the same in-plane strains e11, e22 in every
    layer: the vertical strain and the horizontal stress of one isotropic layer (Hooke). *)
Definition lay_e33 (s33 e11 e22 : R) (x : layer) : R :=
  (s33 - ll x * (e11 + e22)) / (ll x + 2 * lg x).
Definition lay_s11 (s33 e11 e22 : R) (x : layer) : R :=
  ll x * (e11 + e22 + lay_e33 s33 e11 e22 x) + 2 * lg x * e11.
(** A log: one record (thickness, vp, vs, density) per layer, and the depth points below [top]. *)
Record logrec := { l_t : R; l_vp : R; l_vs : R; l_den : R }.
Fixpoint depths (top : R) (L : list logrec) : list R :=
  match L with [] => [top] | x :: L => top :: depths (top + l_t x) L end.
Definition log_layer (x : logrec) : layer :=
  (l_t x, l_den x * l_vp x ^ 2 - 2 * (l_den x * l_vs x ^ 2), l_den x * l_vs x ^ 2).

(** ** Cracked media (Hudson) *)
(** Traction operator of the host for the crack normal [n]. *)
Definition traction (C0 : rmat) (n : nat -> R) (i j r : nat) : R :=
  sum3 (fun q => tensor C0 i j r q * n q).
(** Stiffness lost to one unit of crack density per shear modulus: cracks of normal [n] with
    tangential and normal opening factors [U1], [U3]. *)
Definition crack_loss (C0 : rmat) (U1 U3 : R) (n : nat -> R) (i j k l : nat) : R :=
  sum3 (fun r => sum3 (fun s =>
    (U1 * (kron r s - n r * n s) + U3 * n r * n s) * traction C0 n i j r * traction C0 n k l s)).
(** Opening factors of a penny-shaped crack of aspect ratio [al] filled with a weak material
    (Ki, Gi), in a host (lam, G). *)
Definition penny_U1 (lam G Gi al : R) : R :=
  16 * (lam + 2*G) / (3 * (3*lam + 4*G)) / (1 + 4 * Gi / (PI * al * G) * ((lam + G) / (3*lam + 4*G))).
Definition penny_U3 (lam G Ki Gi al : R) : R :=
  4 * (lam + 2*G) / (3 * (lam + G)) / (1 + (Ki + 4/3*Gi) / (PI * al * G) * ((lam + 2*G) / (lam + G))).
(** Hudson's tensor chi and the second-order term built from the first-order one [c1]. *)
Definition hudson_chi (lam G : R) (r s t u : nat) : R :=
  (kron r t * kron s u * (4 + G / (lam + 2*G))
   - (kron r u * kron s t + kron r s * kron t u) * (1 - G / (lam + 2*G))) / 15.
Definition hudson_second (lam G : R) (c1 : nat -> nat -> nat -> nat -> R) (i j k l : nat) : R :=
  sum3 (fun r => sum3 (fun s => sum3 (fun t => sum3 (fun u =>
    c1 i j r s * hudson_chi lam G r s t u * c1 t u k l)))) / G.
(** Coordinate axis and the direction at polar angle [th], azimuth [ph]. *)
Definition axis_dir (a : nat) (i : nat) : R := kron i a.
Definition polar_dir (th ph : R) (i : nat) : R := nth i [sin th * cos ph; sin th * sin ph; cos th] 0.
(** Mean value over a full turn (fundamental theorem of calculus). *)
Definition circle_mean (f : R -> R) (v : R) : Prop :=
  exists F, (forall x, derivable_pt_lim F x (f x)) /\ F (2*PI) - F 0 = 2*PI * v.
(** The four indices range over the three axes. *)
Definition ax4 (i j k l : nat) : Prop := (i < 3 /\ j < 3 /\ k < 3 /\ l < 3)%nat.

(** ** Eshelby's tensor of an oblate spheroid with semi-axes (1, 1, alpha), Mura's notation *)
Definition esh_axis (al : R) (i : nat) : R := nth i [1; 1; al] 0.
Definition esh_I1 (al : R) : R :=
  2 * PI * al * (acos al - al * sqrt (1 - al^2)) / (sqrt (1 - al^2))^3.
Definition esh_I (al : R) (i : nat) : R := nth i [esh_I1 al; esh_I1 al; 4*PI - 2 * esh_I1 al] 0.
Definition esh_II (al : R) (i j : nat) : R :=
  let I13 := (esh_I al 0 - esh_I al 2) / (al^2 - 1) in
  let I12 := PI - I13 / 4 in
  let I33 := (4*PI / al^2 - 2 * I13) / 3 in
  rows [[I12; I12; I13]; [I12; I12; I13]; [I13; I13; I33]] i j.
(** S_iijj and S_ijij. *)
Definition esh_S (nu al : R) (i j : nat) : R :=
  (if Nat.eqb i j
   then 3 * esh_axis al j ^ 2 * esh_II al i j + (1 - 2*nu) * esh_I al i
   else esh_axis al j ^ 2 * esh_II al i j - (1 - 2*nu) * esh_I al i) / (8 * PI * (1 - nu)).
Definition esh_shear (nu al : R) (i j : nat) : R :=
  ((esh_axis al i ^ 2 + esh_axis al j ^ 2) * esh_II al i j + (1 - 2*nu) * (esh_I al i + esh_I al j))
  / (16 * PI * (1 - nu)).
(** Normal part of an isotropic stiffness. *)
Definition iso_normal (K G : R) (i j : nat) : R := K - 2/3*G + 2*G * kron i j.
(** [es] is the eigenstrain of a fluid (bulk modulus Kf) inclusion under remote strain [e0]:
    C0 es = (C0 - Cf) (e0 + S es). *)
Definition eigenstrain (K G Kf nu al : R) (e0 es : nat -> R) : Prop :=
  forall i, (i < 3)%nat ->
  sum3 (fun j => iso_normal K G i j * es j)
  = sum3 (fun j => (iso_normal K G i j - Kf) * (e0 j + sum3 (fun k => esh_S nu al j k * es k))).

(** ** Matrix inverse *)
Definition is_inverse (A B : rmat) : Prop := meq6 (mmul A B) ident /\ meq6 (mmul B A) ident.
(** [inv] returns the inverse of every invertible finite matrix (nothing is said otherwise). *)
Definition inverts (inv : list (list fl) -> outcome (list (list fl))) : Prop :=
  forall A B, is_inverse A B -> inv (finmat A) = Ret (finmat B).

(** ** Fluid-saturated rock: the undrained test that defines Gassmann's modulus.
    Confining stress [s], pore pressure [p], bulk strain [e]. The loading splits into a drained
    part [s - p] on the dry frame and a part [p] on mineral and pores alike; the pore-volume strain
    (reciprocity) equals that of the trapped fluid. *)
Definition undrained (K0 Kd Kf phi s p e : R) : Prop :=
  e = (s - p) / Kd + p / K0 /\ phi * (p / Kf - p / K0) = (s - p) * (1 / Kd - 1 / K0).
(** The same test on an anisotropic dry frame with compliance [Sd] and mineral compliance [S0]. *)
Definition hydro (j : nat) : R := if Nat.ltb j 3 then 1 else 0.
Definition undrained_aniso (Sd S0 : rmat) (K0 Kf phi : R) (s : nat -> R) (p : R) (e : nat -> R) : Prop :=
  (forall i, (i < 6)%nat ->
     e i = sum6 (fun j => Sd i j * (s j - p * hydro j)) + p * sum6 (fun j => S0 i j * hydro j)) /\
  phi * (p / Kf - p / K0) = sum3 (fun i => sum6 (fun j => (Sd i j - S0 i j) * (s j - p * hydro j))).

(** ** Biot's high-frequency wave equation: two coupled inertial phases.
    [v] is a phase velocity of the stiffness (P,Q,R) and density (r11,r12,r22) system. *)
Definition biot_phase (P Q R0 r11 r12 r22 v : R) : Prop :=
  (P - r11 * v^2) * (R0 - r22 * v^2) - (Q - r12 * v^2)^2 = 0.
