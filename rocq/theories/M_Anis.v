(** * Model of rockphypy/Anisotropy.py (class Anisotropy). *)
From Verif Require Import Fl M_Utils M_EM.
Open Scope fl_scope.

(** [C[i,j]] of a 2-d array. *)
Definition mget (C : mat) (i j : nat) : fl := nth j (nth i C []) (Exc IndexError).

Section Anis.
Variable m : mode.
Local Infix "/" := (fdiv m) : fl_scope.

(** Anisotropy.py 12-39, [Thomsen]. [alpha] and [beta] are NumPy values (np.sqrt). *)
Definition Anis_Thomsen (C11 C33 C13 C44 C66 den theta : fl)
  : outcome (fl * fl * fl * fl * fl * fl) :=
  let! alpha := fsqrt (C33 / den) * #1000 in
  let! beta := fsqrt (C44 / den) * #1000 in
  let! epsilon := #(1/2) * (C11 - C33) / C33 in
  let! gamma := #(1/2) * (C66 - C44) / C44 in
  let! theta := fdeg2rad theta in
  let! delta := ((C13 + C44) ^^ 2 - (C33 - C44) ^^ 2) / (#2 * C33 * (C33 - C44)) in
  let! VP := alpha * (#1 + delta * fsin theta ^^ 2 * fcos theta ^^ 2 + epsilon * fsin theta ^^ 4) in
  let! VSV := beta * (#1 + alpha ^^ 2 /n beta ^^ 2 * (epsilon - delta)
                           * fsin theta ^^ 2 * fcos theta ^^ 2) in
  let! VSH := beta * (#1 + gamma * fsin theta ^^ 2) in
  Ret (VP, VSV, VSH, epsilon, gamma, delta).

(** Anisotropy.py 42-71, [Thomsen_Tsvankin]. *)
Definition Anis_Thomsen_Tsvankin (C11 C22 C33 C12 C13 C23 C44 C55 C66 : fl)
  : outcome (fl * fl * fl * fl * fl * fl * fl) :=
  let! epsilon_1 := (C22 - C33) / (#2 * C33) in
  let! delta_1 := ((C23 + C44) ^^ 2 - (C33 - C44) ^^ 2) / (#2 * C33 * (C33 - C44)) in
  let! gamma_1 := (C66 - C55) / #2 / C55 in
  let! epsilon_2 := (C11 - C33) / (#2 * C33) in
  let! delta_2 := ((C13 + C55) ^^ 2 - (C33 - C55) ^^ 2) / (#2 * C33 * (C33 - C55)) in
  let! gamma_2 := (C66 - C44) / #2 / C44 in
  let! delta_3 := ((C12 + C66) ^^ 2 - (C11 - C66) ^^ 2) / #2 / C11 / (C11 - C66) in
  Ret (epsilon_1, delta_1, gamma_1, epsilon_2, delta_2, gamma_2, delta_3).

End Anis.

(** [np.dot] with its length check. *)
Definition np_dot (a b : list fl) : outcome fl :=
  if Nat.eqb (length a) (length b) then Ret (fdot a b) else Raise ValueError.

(** Elementwise binary operations on arrays of equal length. *)
Definition np_map2 (f : fl -> fl -> fl) (a b : list fl) : outcome (list fl) :=
  if Nat.eqb (length a) (length b) then Ret (fmap2 f a b) else Raise ValueError.

(** Anisotropy.py 74-109, [Backus]. All operands are NumPy arrays. [V] is divided by its
    sum at line 92. *)
Definition Anis_Backus (V lamda G : list fl) : outcome (fl * fl * fl * fl * fl) :=
  let! s := fsum V in
  let V := map (fun v => v /n s) V in
  call! lam2 := np_map2 (fun l g => #1 /n (l + #2 * g)) lamda G in
  call! lamr := np_map2 (fun l g => l /n (l + #2 * g)) lamda G in
  call! fourg := np_map2 (fun l g => #4 * g * (l + g) /n (l + #2 * g)) lamda G in
  call! d33 := np_dot V lam2 in
  let! C33 := #1 /n d33 in
  call! d44 := np_dot V (map (fun g => #1 /n g) G) in
  let! C44 := #1 /n d44 in
  call! C66 := np_dot V G in
  call! dr := np_dot V lamr in
  let! C13 := #1 /n d33 * dr in
  call! d11 := np_dot V fourg in
  let! C11 := d11 + #1 /n d33 * dr ^^ 2 in
  Ret (C11, C33, C13, C44, C66).

(** [np.diff]. *)
Fixpoint np_diff (l : list fl) : list fl :=
  match l with
  | a :: ((b :: _) as t) => (b - a) :: np_diff t
  | _ => []
  end.

(** Anisotropy.py 112-145, [Backus_log]. *)
Definition Anis_Backus_log (Vp Vs Den Depth : list fl) : outcome (fl * fl * fl * fl * fl * fl) :=
  call! G := np_map2 (fun d v => d * v ^^ 2) Den Vs in
  call! a := np_map2 (fun d v => d * v ^^ 2) Den Vp in
  call! lamda := np_map2 (fun x g => x - #2 * g) a G in
  let thickness := np_diff Depth in
  let! s := fsum thickness in
  let V := map (fun t => t /n s) thickness in
  call! (C11, C33, C13, C44, C66) := Anis_Backus V lamda G in
  call! den := np_dot V Den in
  Ret (C11, C33, C13, C44, C66, den).

Section Anis2.
Variable m : mode.
Local Infix "/" := (fdiv m) : fl_scope.

(** Anisotropy.py 148-179, [vel_azi_HTI]. *)
Definition Anis_vel_azi_HTI (C : mat) (Den azimuth : fl) : outcome (fl * fl * fl) :=
  let! azimuth := fdeg2rad azimuth in
  let! C11 := mget C 0 0 in
  let! C12 := mget C 0 1 in
  let! C33 := mget C 2 2 in
  let! C44 := mget C 3 3 in
  let! C55 := mget C 4 4 in
  let! R := fsqrt (((C33 - C55) * fsin azimuth ^^ 2 - (C11 - C55) * fcos azimuth ^^ 2) ^^ 2
                   + #4 * (C12 + C55) ^^ 2 * fsin azimuth ^^ 2 * fcos azimuth ^^ 2) in
  let! Vp := #(1/2) / Den * ((C33 + C55) * fsin azimuth ^^ 2 + (C11 + C55) * fcos azimuth ^^ 2 + R) in
  let! Vsh := #(1/2) / Den * ((C33 + C55) * fsin azimuth ^^ 2 + (C11 + C55) * fcos azimuth ^^ 2 - R) in
  let! Vsv := #1 / Den * (C55 + (C44 - C55) * fsin azimuth ^^ 2) in
  let! VP := fsqrt Vp in
  let! VSH := fsqrt Vsh in
  let! VSV := fsqrt Vsv in
  Ret (VP, VSH, VSV).

(** Anisotropy.py 182-215, [vel_azi_VTI]. *)
Definition Anis_vel_azi_VTI (C : mat) (Den azimuth : fl) : outcome (fl * fl * fl) :=
  let! azimuth := fdeg2rad azimuth in
  let! C11 := mget C 0 0 in
  let! C13 := mget C 0 2 in
  let! C33 := mget C 2 2 in
  let! C44 := mget C 3 3 in
  let! C66 := mget C 5 5 in
  let! R := fsqrt (((C11 - C44) * fsin azimuth ^^ 2 - (C33 - C44) * fcos azimuth ^^ 2) ^^ 2
                   + (C13 + C44) ^^ 2 * fsin (#2 * azimuth) ^^ 2) in
  let! Vp := #(1/2) / Den * (C11 * fsin azimuth ^^ 2 + C33 * fcos azimuth ^^ 2 + C44 + R) in
  let! Vsv := #(1/2) / Den * (C11 * fsin azimuth ^^ 2 + C33 * fcos azimuth ^^ 2 + C44 - R) in
  let! Vsh := #1 / Den * (C66 * fsin azimuth ^^ 2 + C44 * fcos azimuth ^^ 2) in
  let! VP := fsqrt Vp in
  let! VSH := fsqrt Vsh in
  let! VSV := fsqrt Vsv in
  Ret (VP, VSH, VSV).

End Anis2.

(** Matrix product and transpose of 6x6 arrays ([@] and [.T]). *)
Definition fsum6 (f : nat -> fl) : fl :=
  f 0%nat + f 1%nat + f 2%nat + f 3%nat + f 4%nat + f 5%nat.
Definition fmatmul (A B : mat) : mat :=
  map (fun i => map (fun j => fsum6 (fun k => mget A i k * mget B k j)) (seq 0 6)) (seq 0 6).
Definition ftrans (A : mat) : mat :=
  map (fun i => map (fun j => mget A j i) (seq 0 6)) (seq 0 6).

(** Anisotropy.py 267-281 of [Bond_trans]: the block matrix [M] from the direction cosines
    ([M2] is written without the factor 2), and [M @ C @ M.T]. *)
Definition Anis_Bond_M (b11 b12 b13 b21 b22 b23 b31 b32 b33 : fl) : mat :=
  [[b11^^2; b12^^2; b13^^2; b12*b13; b13*b11; b11*b12];
   [b21^^2; b22^^2; b23^^2; b22*b23; b23*b21; b21*b22];
   [b31^^2; b32^^2; b33^^2; b32*b33; b33*b31; b31*b32];
   [b21*b31; b22*b32; b23*b33; b22*b33+b23*b32; b21*b33+b23*b31; b22*b31+b21*b32];
   [b31*b11; b32*b12; b33*b13; b12*b33+b13*b32; b11*b33+b13*b31; b11*b32+b12*b31];
   [b11*b21; b12*b22; b13*b23; b22*b13+b12*b23; b11*b23+b13*b21; b22*b11+b12*b21]].

(** Anisotropy.py 218-282, [Bond_trans]. For an [axis] other than 1 and 3 the direction
    cosines are unbound. *)
Definition Anis_Bond_trans (C : mat) (theta : fl) (axis : Z) : outcome mat :=
  let! theta := fdeg2rad theta in
  let c := fcos theta in
  let cp := fcos (theta + Fin (PI / 2)) in
  let cm := fcos (Fin (PI / 2) - theta) in
  if Z.eqb axis 3 then
    let M := Anis_Bond_M c cm #0  cp c #0  #0 #0 #1 in
    Ret (fmatmul (fmatmul M C) (ftrans M))
  else if Z.eqb axis 1 then
    let M := Anis_Bond_M #1 #0 #0  #0 c cp  #0 cm c in
    Ret (fmatmul (fmatmul M C) (ftrans M))
  else Raise UnboundLocalError.
