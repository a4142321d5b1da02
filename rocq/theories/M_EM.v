(** * Model of rockphypy/EM.py (class EM). *)
From Verif Require Import Fl M_Utils.
Open Scope fl_scope.

(** [np.dot] of two 1-d arrays of the same length and [np.sum] of a 1-d array:
    a left-to-right accumulation (summation order is irrelevant in exact arithmetic). *)
Fixpoint fsum (l : list fl) : fl :=
  match l with [] => #0 | x :: l => x + fsum l end.
Fixpoint fmap2 (f : fl -> fl -> fl) (l1 l2 : list fl) : list fl :=
  match l1, l2 with x :: l1, y :: l2 => f x y :: fmap2 f l1 l2 | _, _ => [] end.
Definition fdot (l1 l2 : list fl) : fl := fsum (fmap2 fmul l1 l2).

(** EM.py 15-40, [EM.VRH]. [M] is a NumPy array, so [1/M] and [**-1] have NumPy
    semantics whatever the caller passes. Different lengths: [np.dot] raises ValueError. *)
Definition EM_VRH (volumes M : list fl) : outcome (fl * fl * fl) :=
  if negb (Nat.eqb (length volumes) (length M)) then Raise ValueError else
  let! M_v := fdot volumes M in
  let! M_r := #1 /n fdot volumes (map (fun x => #1 /n x) M) in
  let! M_h := #(1/2) * (M_r + M_v) in
  Ret (M_v, M_r, M_h).

Section EM.
Variable m : mode.
Local Infix "/" := (fdiv m) : fl_scope.
(** Python [x ** -1]. *)
Local Notation inv x := (#1 / x) (only parsing).

(** EM.py 43-66, [EM.cripor]. *)
Definition EM_cripor (K0 G0 phi phic : fl) : outcome (fl * fl) :=
  let! K_dry := K0 * (#1 - phi / phic) in
  let! G_dry := G0 * (#1 - phi / phic) in
  Ret (K_dry, G_dry).

(** EM.py 69-99, [EM.cripor_reuss], for scalar [phic]. The code passes a (1,2) array of
    fractions, so the result is a length-1 array; the model returns its single element. *)
Definition EM_cripor_reuss (M0 Mf phic : fl) (den : bool) : outcome fl :=
  let! a := #1 - phic in
  call! (v, r, h) := EM_VRH [a; phic] [M0; Mf] in
  if negb den then Ret r else Ret v.

(** EM.py 102-136, [EM.HS]. *)
Definition EM_HS (f K1 K2 G1 G2 : fl) (bound : string) : outcome (fl * fl) :=
  if String.eqb bound "upper" then
    let! K := K1 + (#1 - f) / (inv (K2 - K1) + f * inv (K1 + #4 * G1 / #3)) in
    let! Temp := (K1 + #2 * G1) / (#5 * G1 * (K1 + #4 * G1 / #3)) in
    let! G := G1 + (#1 - f) / (inv (G2 - G1) + #2 * f * Temp) in
    Ret (K, G)
  else
    let! K := K2 + f / (inv (K1 - K2) + (#1 - f) * inv (K2 + #4 * G2 / #3)) in
    let! Temp := (K2 + #2 * G2) / (#5 * G2 * (K2 + #4 * G2 / #3)) in
    let! G := G2 + f / (inv (G1 - G2) + #2 * (#1 - f) * Temp) in
    Ret (K, G).

(** Result of [Eshelby_Cheng]: an array of 5 constants, or a 6x6 matrix. *)
Inductive ec_res := EC_array (C11 C33 C13 C44 C66 : fl) | EC_mat (C : mat).

(** EM.py 139-213, [EM.Eshelby_Cheng]. [Sa] is a NumPy scalar, hence [/n] in every
    division whose operands derive from it. *)
Definition EM_Eshelby_Cheng (K G phi alpha Kf : fl) (mat_ : bool) : outcome ec_res :=
  let! lamda := K - #2 * G / #3 in
  let! sigma := (#3 * K - #2 * G) / (#6 * K + #2 * G) in
  let! R := (#1 - #2 * sigma) / (#8 * Fin PI * (#1 - sigma)) in
  let! Q := #3 * R / (#1 - #2 * sigma) in
  let! Sa := fsqrt (#1 - alpha ^^ 2) in
  let! Ia := #2 * Fin PI * alpha * (farccos alpha - alpha * Sa) /n (Sa ^^ 3) in
  let! Ic := #4 * Fin PI - #2 * Ia in
  let! Iac := (Ic - Ia) /n (#3 * Sa ^^ 2) in
  let! Iaa := Fin PI - #3 * Iac /n #4 in
  let! Iab := Iaa /n #3 in
  let! S11 := Q * Iaa + R * Ia in
  let! S33 := Q * (#4 * Fin PI / #3 - #2 * Iac * alpha ^^ 2) + Ic * R in
  let! S12 := Q * Iab - R * Ia in
  let! S13 := Q * Iac * alpha ^^ 2 - R * Ia in
  let! S31 := Q * Iac - R * Ic in
  let! S1212 := Q * Iab + R * Ia in
  let! S1313 := Q * (#1 + alpha ^^ 2) * Iac /n #2 + R * (Ia + Ic) /n #2 in
  let! C := Kf / (#3 * (K - Kf)) in
  let! D := S33 * S11 + S33 * S12 - #2 * S31 * S13 - (S11 + S12 + S33 - #1 - #3 * C)
            - C * (S11 + S12 + #2 * (S33 - S13 - S31)) in
  let! E := S33 * S11 - S31 * S13 - (S33 + S11 - #2 * C - #1)
            + C * (S31 + S13 - S11 - S33) in
  let! C11_1 := lamda * (S31 - S33 + #1) + #2 * G * E /n (D * (S12 - S11 + #1)) in
  let! C33_1 := ((lamda + #2 * G) * (- S12 - S11 + #1) + #2 * lamda * S13 + #4 * G * C) /n D in
  let! C13_1 := ((lamda + #2 * G) * (S13 + S31) - #4 * G * C
                 + lamda * (S13 - S12 - S11 - S33 + #2)) /n (#2 * D) in
  let! C44_1 := G /n (#1 - #2 * S1313) in
  let! C66_1 := G /n (#1 - #2 * S1212) in
  let! C11_0 := lamda + #2 * G in
  let C13_0 := lamda in
  let C33_0 := C11_0 in
  let C44_0 := G in
  let C66_0 := G in
  let! C11 := C11_0 - phi * C11_1 in
  let! C13 := C13_0 - phi * C13_1 in
  let! C33 := C33_0 - phi * C33_1 in
  let! C44 := C44_0 - phi * C44_1 in
  let! C66 := C66_0 - phi * C66_1 in
  if negb mat_ then Ret (EC_array C11 C33 C13 C44 C66)
  else call! C := utils_write_VTI_matrix C11 C33 C13 C44 C66 in Ret (EC_mat C).

(** EM.py 216-285, [EM.hudson]. [order]/[axis] outside {1,2}/{1,3} leave the result
    variables unbound: UnboundLocalError. *)
Definition EM_hudson (K G Ki Gi alpha crd : fl) (order axis : Z) : outcome mat :=
  let! lamda := K - #2 * G / #3 in
  let! kapa := (Ki + #4 * Gi / #3) * (lamda + #2 * G) / (Fin PI * alpha * G * (lamda + G)) in
  let! M := #4 * Gi * (lamda + G) / (Fin PI * alpha * G * (#3 * lamda + #4 * G)) in
  let! U1 := #16 * (lamda + #2 * G) / (#3 * (#3 * lamda + #4 * G) * (#1 + M)) in
  let! U3 := #4 * (lamda + #2 * G) / (#3 * (lamda + G) * (#1 + kapa)) in
  let! C11_1 := - lamda ^^ 2 * crd * U3 / G in
  let! C13_1 := - lamda * (lamda + #2 * G) * crd * U3 / G in
  let! C33_1 := - (lamda + #2 * G) ^^ 2 * crd * U3 / G in
  let! C44_1 := - G * crd * U1 in
  let! q := #15 * lamda ^^ 2 / G ^^ 2 + #28 * lamda / G + #28 in
  let! C11_2 := q / #15 * lamda ^^ 2 / (lamda + #2 * G) * (crd * U3) ^^ 2 in
  let! C13_2 := q / #15 * lamda * (crd * U3) ^^ 2 in
  let! C33_2 := q / #15 * (lamda + #2 * G) * (crd * U3) ^^ 2 in
  let! C44_2 := #2 / #15 * G * (#3 * lamda + #8 * G) / (lamda + #2 * G) * (crd * U1) ^^ 2 in
  call! (C11, C13, C33, C44, C66) :=
    (if Z.eqb order 1 then
       let! C11 := lamda + #2 * G + C11_1 in
       let! C13 := lamda + C13_1 in
       let! C33 := lamda + #2 * G + C33_1 in
       let! C44 := G + C44_1 in
       Ret (C11, C13, C33, C44, G)
     else if Z.eqb order 2 then
       let! C11 := lamda + #2 * G + C11_1 + C11_2 in
       let! C13 := lamda + C13_1 + C13_2 in
       let! C33 := lamda + #2 * G + C33_1 + C33_2 in
       let! C44 := G + C44_1 + C44_2 in
       Ret (C11, C13, C33, C44, G)
     else Raise UnboundLocalError) in
  if Z.eqb axis 3 then utils_write_VTI_matrix C11 C33 C13 C44 C66
  else if Z.eqb axis 1 then utils_write_HTI_matrix C33 C11 C13 C66 C44
  else Raise UnboundLocalError.

(** EM.py 288-323, [EM.hudson_rand]. *)
Definition EM_hudson_rand (K G Ki Gi alpha crd : fl) : outcome (fl * fl) :=
  let! lamda := K - #2 * G / #3 in
  let! kapa := (Ki + #4 * Gi / #3) * (lamda + #2 * G) / (Fin PI * alpha * G * (lamda + G)) in
  let! M := #4 * Gi * (lamda + G) / (Fin PI * alpha * G * (#3 * lamda + #4 * G)) in
  let! U1 := #16 * (lamda + #2 * G) / (#3 * (#3 * lamda + #4 * G) * (#1 + M)) in
  let! U3 := #4 * (lamda + #2 * G) / (#3 * (lamda + G) * (#1 + kapa)) in
  let! G_1 := - #2 * G * crd * (#3 * U1 + #2 * U3) in
  let! lamda_1 := (#1 / #3) * (- (#3 * lamda + #2 * G) ^^ 2 * crd * U3 / (#3 * G) - #2 * G_1) in
  let! lamda_eff := lamda + lamda_1 in
  let! G_eff := G + G_1 in
  let! K_eff := lamda_eff + #2 * G_eff / #3 in
  Ret (K_eff, G_eff).

(** EM.py 326-378, [EM.hudson_ortho]. [alpha] and [crd] are the documented size-3
    arrays (other sizes are not modelled), so everything computed from them is NumPy. *)
Definition EM_hudson_ortho (K G Ki Gi : fl) (alpha crd : fl * fl * fl) : outcome mat :=
  let! lamda := K - #2 * G / #3 in
  let kapa a := (Ki + #4 * Gi / #3) * (lamda + #2 * G) /n (Fin PI * a * G * (lamda + G)) in
  let M a := #4 * Gi * (lamda + G) /n (Fin PI * a * G * (#3 * lamda + #4 * G)) in
  let U1 a := #16 * (lamda + #2 * G) /n (#3 * (#3 * lamda + #4 * G) * (#1 + M a)) in
  let U3 a := #4 * (lamda + #2 * G) /n (#3 * (lamda + G) * (#1 + kapa a)) in
  let C11_1 a c := - lamda ^^ 2 * c * U3 a /n G in
  let C13_1 a c := - lamda * (lamda + #2 * G) * c * U3 a /n G in
  let C33_1 a c := - (lamda + #2 * G) ^^ 2 * c * U3 a /n G in
  let C44_1 a c := - G * c * U1 a in
  let C12_1 a c := C11_1 a c in
  let '(a0, a1, a2) := alpha in
  let '(c0, c1, c2) := crd in
  let! C11 := lamda + #2 * G + C33_1 a0 c0 + C11_1 a1 c1 + C11_1 a2 c2 in
  let! C12 := lamda + C13_1 a0 c0 + C13_1 a1 c1 + C12_1 a2 c2 in
  let! C13 := lamda + C13_1 a0 c0 + C12_1 a1 c1 + C13_1 a2 c2 in
  let! C22 := lamda + #2 * G + C11_1 a0 c0 + C33_1 a1 c1 + C11_1 a2 c2 in
  let! C23 := lamda + C12_1 a0 c0 + C13_1 a1 c1 + C13_1 a2 c2 in
  let! C33 := lamda + #2 * G + C11_1 a0 c0 + C11_1 a1 c1 + C33_1 a2 c2 in
  let! C44 := G + C44_1 a1 c1 + C44_1 a2 c2 in
  let! C55 := G + C44_1 a0 c0 + C44_1 a2 c2 in
  let! C66 := G + C44_1 a0 c0 + C44_1 a1 c1 in
  utils_write_matrix C11 C22 C33 C12 C13 C23 C44 C55 C66.

(** EM.py 381-440, [EM.hudson_cone]. *)
Definition EM_hudson_cone (K G Ki Gi alpha crd theta : fl) : outcome mat :=
  let! theta := fdeg2rad theta in
  let! lamda := K - #2 * G / #3 in
  let! kapa := (Ki + #4 * Gi / #3) * (lamda + #2 * G) / (Fin PI * alpha * G * (lamda + G)) in
  let! M := #4 * Gi * (lamda + G) / (Fin PI * alpha * G * (#3 * lamda + #4 * G)) in
  let! U1 := #16 * (lamda + #2 * G) / (#3 * (#3 * lamda + #4 * G) * (#1 + M)) in
  let! U3 := #4 * (lamda + #2 * G) / (#3 * (lamda + G) * (#1 + kapa)) in
  let! C11_1 := - crd / (#2 * G) *
      (U3 * (#2 * lamda ^^ 2 + #4 * lamda * G * fsin theta ^^ 2 + #3 * G ^^ 2 * fsin theta ^^ 4)
       + U1 * G ^^ 2 * fsin theta ^^ 2 * (#4 - #3 * fsin theta ^^ 2)) in
  let! C33_1 := - crd / G *
      (U3 * (lamda + #2 * G * fcos theta ^^ 2) ^^ 2
       + U1 * G ^^ 2 * #4 * fcos theta ^^ 2 * fsin theta ^^ 2) in
  let! C12_1 := - crd / (#2 * G) *
      (U3 * (#2 * lamda ^^ 2 + #4 * lamda * G * fsin theta ^^ 2 + G ^^ 2 * fsin theta ^^ 4)
       - U1 * G ^^ 2 * fsin theta ^^ 4) in
  let! C13_1 := - crd / G *
      (U3 * (lamda + G * fsin theta ^^ 2) * (lamda + #2 * G * fcos theta ^^ 2)
       - U1 * G ^^ 2 * #2 * fsin theta ^^ 2 * fcos theta ^^ 2) in
  let! C44_1 := - crd / #2 * G *
      (U3 * #4 * fsin theta ^^ 2 * fcos theta ^^ 2
       + U1 * (fsin theta ^^ 2 + #2 * fcos theta ^^ 2
               - #4 * fsin theta ^^ 2 * fcos theta ^^ 2)) in
  let! C66_1 := - crd / #2 * G *
      (U3 * #4 * fsin theta ^^ 4 + U1 * fsin theta ^^ 2 * (#2 - fsin theta ^^ 2)) in
  let! C11 := lamda + #2 * G + C11_1 in
  let! C12 := lamda + C12_1 in
  let! C13 := lamda + C13_1 in
  let! C33 := lamda + #2 * G + C33_1 in
  let! C44 := G + C44_1 in
  let! C66 := G + C66_1 in
  utils_write_matrix C11 C11 C33 C12 C13 C13 C44 C44 C66.

End EM.

(** *** Berryman's self-consistent scheme *)

(** The spheroid part shared by EM.py 502-519 ([PQ_vectorize], elementwise) and
    EM.py 758-775 ([PQ]), from [f= ...] to [Q = ...]; the two texts are identical.
    [theta] is a NumPy value in both, so every division by an expression containing it is
    NumPy's; [d] is the division between the moduli. *)
Definition EM_PQ_spheroid (d : fl -> fl -> fl) (Km Gm Ki Gi alpha theta : fl) : outcome (fl * fl) :=
  let! f := alpha ^^ 2 * (#3 * theta - #2) /n (#1 - alpha ^^ 2) in
  let! A := d Gi Gm - #1 in
  let! B := d (d Ki Km - d Gi Gm) #3 in
  let! R := d Gm (Km + #(4/3) * Gm) in
  let! F1 := #1 + A * (#(3/2) * (f + theta) - R * (#(3/2) * f + #(5/2) * theta - #(4/3))) in
  let! F2 := #1 + A * (#1 + #(3/2) * (f + theta) - R * (#(3/2) * f + #(5/2) * theta))
             + B * (#3 - #4 * R)
             + A * (A + #3 * B) * (#(3/2) - #2 * R)
               * (f + theta - R * (f - theta + #2 * theta ^^ 2)) in
  let! F3 := #1 + A * (#1 - f - #(3/2) * theta + R * (f + theta)) in
  let! F4 := #1 + (d A #4) * (f + #3 * theta - R * (f - theta)) in
  let! F5 := A * (- f + R * (f + theta - #(4/3))) + B * theta * (#3 - #4 * R) in
  let! F6 := #1 + A * (#1 + f - R * (f + theta)) + B * (#1 - theta) * (#3 - #4 * R) in
  let! F7 := #2 + (d A #4) * (#3 * f + #9 * theta - R * (#3 * f + #5 * theta))
             + B * theta * (#3 - #4 * R) in
  let! F8 := A * (#1 - #2 * R + (f /n #2) * (R - #1) + (theta /n #2) * (#5 * R - #3))
             + B * (#1 - theta) * (#3 - #4 * R) in
  let! F9 := A * ((R - #1) * f - R * theta) + B * theta * (#3 - #4 * R) in
  let! Tiijj := #3 * F1 /n F2 in
  let! Tijij := Tiijj /n #3 + #2 /n F3 + #1 /n F4 + (F4 * F5 + F6 * F7 - F8 * F9) /n (F2 * F4) in
  let! P := Tiijj /n #3 in
  let! Q := (Tijij - P) /n #5 in
  Ret (P, Q).

(** EM.py 498-500: [theta] of an oblate / prolate spheroid. *)
Definition EM_theta_oblate (m : mode) (alpha : fl) : fl :=
  fdiv m alpha (fpow m (#1 - alpha ^^ 2) #(3/2)) * (farccos alpha - alpha * fsqrt (#1 - alpha ^^ 2)).
Definition EM_theta_prolate (m : mode) (alpha : fl) : fl :=
  fdiv m alpha (fpow m (alpha ^^ 2 - #1) #(3/2))
  * (alpha * fpow m (alpha ^^ 2 - #1) #(1/2) - (#1 /n fcosh alpha)).

(** dtype of the aspect-ratio array handed in by the caller. *)
Inductive dtype := DFloat | DInt.

(** EM.py 496: [alpha_[alpha==1]=0.999] on the array [alpha] itself ([alpha_ = alpha]
    at 495 is an alias, not a copy). An integer array truncates 0.999 to 0. *)
Definition EM_PQ_clobber (dt : dtype) (alpha : list R) : list R :=
  map (fun a => if Req_EM_T a 1 then match dt with DFloat => 0.999 | DInt => 0%R end else a) alpha.

(** One element of the vectorised computation, EM.py 498-523. [a] is the array element after
    the in-place write. All operands are NumPy. *)
Definition EM_PQ_elem (Km Gm Ki Gi : fl) (a : R) : outcome (fl * fl) :=
  let! theta := (if Rlt_dec a 1 then EM_theta_oblate NumPy (Fin a)
                 else if Rlt_dec 1 a then EM_theta_prolate NumPy (Fin a)
                 else Und (* np.empty: uninitialised *)) in
  call! (P, Q) := EM_PQ_spheroid (fdiv NumPy) Km Gm Ki Gi (Fin a) theta in
  (* 521-523: P[alpha==1]=..., Q[alpha==1]=... *)
  if Req_EM_T a 1 then
    let! P := (Km + #4 * Gm /n #3) /n (Ki + #4 * Gm /n #3) in
    let! kesai := Gm /n #6 * (#9 * Km + #8 * Gm) /n (Km + #2 * Gm) in
    let! Q := (Gm + kesai) /n (Gi + kesai) in
    Ret (P, Q)
  else Ret (P, Q).

(** The exception for arrays that do not have one size: the masks made from [alpha] index arrays of the size of [Ki]
    (lines 500-502); [Ki] and [Gi] meet at line 506, and when one of them has a single element it is stretched and the
    masks of lines 521-523 do not fit. *)
Definition EM_PQ_misfit (Ki Gi : list fl) (al : list R) : exn :=
  if Nat.eqb (length al) (length Ki) then
    if (Nat.eqb (length Ki) 1 || Nat.eqb (length Gi) 1)%bool then IndexError else ValueError
  else IndexError.
Fixpoint EM_PQ_elems (e : exn) (Km Gm : fl) (Ki Gi : list fl) (al : list R) : outcome (list fl * list fl) :=
  match Ki, Gi, al with
  | k :: Ki, g :: Gi, a :: al =>
      call! (p, q) := EM_PQ_elem Km Gm k g a in
      call! (P, Q) := EM_PQ_elems e Km Gm Ki Gi al in
      Ret (p :: P, q :: Q)
  | [], [], [] => Ret ([], [])
  | _, _, _ => Raise e
  end.

(** EM.py 470-524, [EM.PQ_vectorize]. Result: [(P, Q)] together with the content of the
    caller's [alpha] array after the call. *)
Definition EM_PQ_vectorize (dt : dtype) (Km Gm : fl) (Ki Gi : list fl) (alpha : list R)
  : outcome ((list fl * list fl) * list R) :=
  let alpha' := EM_PQ_clobber dt alpha in
  call! PQ := EM_PQ_elems (EM_PQ_misfit Ki Gi alpha) Km Gm Ki Gi alpha' in
  Ret (PQ, alpha').

(** An elementwise operation on two 1-D arrays: equal lengths, or one of them has one element. *)
Definition np_bc (f : fl -> fl -> fl) (a b : list fl) : outcome (list fl) :=
  if Nat.eqb (length a) (length b) then Ret (fmap2 f a b)
  else match a, b with
       | [x], _ => Ret (map (f x) b)
       | _, [y] => Ret (map (fun x => f x y) a)
       | _, _ => Raise ValueError
       end.
(** EM.py 527-553, [EM.Berryman_func]. The second component is the content of the caller's
    [Alpha] array after the call. *)
Definition EM_Berryman_func (dt : dtype) (K_sc G_sc : fl) (K G X : list fl) (Alpha : list R)
  : outcome ((fl * fl) * list R) :=
  call! (PQ, Alpha') := EM_PQ_vectorize dt K_sc G_sc K G Alpha in
  let '(P, Q) := PQ in
  call! w := np_bc fmul X (map (fun k => k - K_sc) K) in
  call! w := np_bc fmul w P in
  let! eq1 := fsum w in
  call! w := np_bc fmul X (map (fun g => g - G_sc) G) in
  call! w := np_bc fmul w Q in
  let! eq2 := fsum w in
  Ret ((eq1, eq2), Alpha').

(** EM.py 443-467, [EM.Berryman_sc]. [fsolve] is an oracle: it receives the residual
    function and the starting point (the mean moduli) and returns a pair. *)
Definition EM_Berryman_sc (fsolve : (fl -> fl -> outcome (fl * fl)) -> fl * fl -> fl * fl)
  (dt : dtype) (K G X : list fl) (Alpha : list R) : outcome (fl * fl) :=
  let mean l := fsum l /n Fin (INR (length l)) in
  let res k g := call! (r, _) := EM_Berryman_func dt k g K G X Alpha in Ret r in
  Ret (fsolve res (mean K, mean G)).

Section EM2.
Variable m : mode.
Local Infix "/" := (fdiv m) : fl_scope.
Local Notation inv x := (#1 / x) (only parsing).

(** EM.py 557-579, [EM.Swiss_cheese] (scalars; an array [Ks] is broadcast against [phi]). *)
Definition EM_Swiss_cheese (Ks Gs phi : fl) : outcome (fl * fl) :=
  let! Kdry := inv (#1 / Ks * (#1 + (#1 + #3 * Ks / (#4 * Gs)) * phi)) in
  let! Gdry := inv (#1 / Gs * (#1 + (#15 * Ks + #20 * Gs) * phi / (#9 * Ks + #8 * Gs))) in
  Ret (Kdry, Gdry).

(** EM.py 582-606, [EM.SC]. The loop body; [G_eff] uses the updated [K_eff]. *)
Definition EM_SC_step (phi Ks Gs K_eff G_eff : fl) : outcome (fl * fl) :=
  let! K_eff := inv (#1 / Ks + (#1 / K_eff + #3 / (#4 * G_eff)) * phi) in
  let! G_eff := inv (#1 / Gs + (#15 * K_eff + #20 * G_eff) / (#9 * K_eff + #8 * G_eff)
                               * phi / G_eff) in
  Ret (K_eff, G_eff).
Fixpoint EM_SC_loop (n : nat) (phi Ks Gs K_eff G_eff : fl) : outcome (fl * fl) :=
  match n with
  | O => Ret (K_eff, G_eff)
  | S n => call! (K_eff, G_eff) := EM_SC_step phi Ks Gs K_eff G_eff in
           EM_SC_loop n phi Ks Gs K_eff G_eff
  end.
Definition EM_SC (phi Ks Gs : fl) (iter_n : Z) : outcome (fl * fl) :=
  EM_SC_loop (Z.to_nat iter_n) phi Ks Gs Ks Gs.

(** EM.py 609-631, [EM.Dilute_crack]. *)
Definition EM_Dilute_crack (Ks Gs cd : fl) : outcome (fl * fl) :=
  let! nu := (#3 * Ks - #2 * Gs) / (#2 * (#3 * Ks + Gs)) in
  let! K_eff := inv (#1 / Ks * (#1 + #16 / #9 * (#1 - nu ^^ 2) / (#1 - #2 * nu) * cd)) in
  let! G_eff := inv (#1 / Gs * (#1 + #32 * (#1 - nu) * (#5 - nu) / (#45 * (#2 - nu)) * cd)) in
  Ret (K_eff, G_eff).

(** EM.py 634-657, [EM.OConnell_Budiansky]. *)
Definition EM_OConnell_Budiansky (K0 G0 crd : fl) : outcome (fl * fl) :=
  let! nu0 := (#3 * K0 - #2 * G0) / (#6 * K0 + #2 * G0) in
  let! nu_eff := nu0 * (#1 - #16 * crd / #9) in
  let! K_dry := K0 * (#1 - #16 * (#1 - nu_eff ^^ 2) * crd / (#9 * (#1 - #2 * nu_eff))) in
  let! G_dry := G0 * (#1 - #32 * (#1 - nu_eff) * (#5 - nu_eff) * crd / (#45 * (#2 - nu_eff))) in
  Ret (K_dry, G_dry).

(** EM.py 697-721, [EM.OC_R_funcs]. *)
Definition EM_OC_R_funcs (nu_eff D crd nu_0 w : fl) : outcome (fl * fl) :=
  let! eq1 := #45 / #16 * (nu_0 - nu_eff) / (#1 - nu_eff ^^ 2) * (#2 - nu_eff)
              / (D * (#1 + #3 * nu_0) * (#2 - nu_eff) - #2 * (#1 - #2 * nu_0)) - crd in
  let! eq2 := crd * D ^^ 2
              - (crd + #9 / #16 * (#1 - #2 * nu_eff) / (#1 - nu_0 ^^ 2) + #3 * w / (#4 * Fin PI)) * D
              + #9 / #16 * (#1 - #2 * nu_eff) / (#1 - nu_0 ^^ 2) in
  Ret (eq1, eq2).

(** EM.py 661-694, [EM.OConnell_Budiansky_fl]. [sol] is the pair returned by [fsolve] started
    at (0.2, 0.9) on [OC_R_funcs]; its elements are NumPy scalars. *)
Definition EM_OConnell_Budiansky_fl (fsolve : (fl -> fl -> outcome (fl * fl)) -> fl * fl -> fl * fl)
  (K0 G0 Kfl crd alpha : fl) : outcome (fl * fl) :=
  let! nu0 := (#3 * K0 - #2 * G0) / (#6 * K0 + #2 * G0) in
  let! w := Kfl / alpha / K0 in
  let '(nu_eff, D) := fsolve (fun a b => EM_OC_R_funcs a b crd nu0 w) (#(0.2), #(0.9)) in
  let! K_sat := K0 * (#1 - #16 * (#1 - nu_eff ^^ 2) * crd * D /n (#9 * (#1 - #2 * nu_eff))) in
  let! G_sat := G0 * (#1 - #32 / #45 * (#1 - nu_eff) * (D + #3 /n (#2 - nu_eff)) * crd) in
  Ret (K_sat, G_sat).

(** EM.py 724-776, [EM.PQ]. *)
Definition EM_PQ (Km Gm Ki Gi : fl) (alpha : R) : outcome (fl * fl) :=
  if Req_EM_T alpha 1 then
    let! P := (Km + #4 * Gm / #3) / (Ki + #4 * Gm / #3) in
    let! kesai := Gm / #6 * (#9 * Km + #8 * Gm) / (Km + #2 * Gm) in
    let! Q := (Gm + kesai) / (Gi + kesai) in
    Ret (P, Q)
  else
    let! theta := (if Rlt_dec alpha 1 then EM_theta_oblate m (Fin alpha)
                   else EM_theta_prolate m (Fin alpha)) in
    EM_PQ_spheroid (fdiv m) Km Gm Ki Gi (Fin alpha) theta.

(** EM.py 779-787, [EM.DEM]: right-hand side of the ODE; [params] is [Gi,Ki,alpha]. *)
Definition EM_DEM (K_eff G_eff t : fl) (params : fl * fl * R) : outcome (fl * fl) :=
  let '(Gi, Ki, alpha) := params in
  call! (P, Q) := EM_PQ K_eff G_eff Ki Gi alpha in
  let! d1 := #1 / (#1 - t) * (Ki - K_eff) * P in
  let! d2 := #1 / (#1 - t) * (Gi - G_eff) * Q in
  Ret (d1, d2).

(** EM.py 790-819, [EM.Berryman_DEM]. [odeint] is an oracle taking the right-hand side, the
    initial state and the time grid; [arange] is the grid [np.arange(0, phi+0.01, 0.01)]. *)
Definition EM_Berryman_DEM
  (odeint : (fl -> fl -> fl -> outcome (fl * fl)) -> fl * fl -> list fl -> list (fl * fl))
  (arange : fl -> fl -> fl -> list fl)
  (Km Gm Ki Gi : fl) (alpha : R) (phi : fl) : outcome (list fl * list fl * list fl) :=
  let params := (Gi, Ki, alpha) in
  let y0 := (Km, Gm) in
  let t := arange #0 (phi + #(0.01)) #(0.01) in
  let psoln := odeint (fun k g t => EM_DEM k g t params) y0 t in
  Ret (map fst psoln, map snd psoln, t).

(** EM.py 822-859, [EM.SC_dilute]. *)
Definition EM_SC_dilute (Km Gm Ki Gi f : fl) (mode_ : string) : outcome (fl * fl) :=
  let! nu := #(1/2) * (#3 * Km - #2 * Gm) / (#3 * Km + Gm) in
  let! S1 := #1 / #3 * (#1 + nu) / (#1 - nu) in
  let! S2 := #2 / #15 * (#4 - #5 * nu) / (#1 - nu) in
  if String.eqb mode_ "stress" then
    let! K := inv (#1 + f * inv (Km / (Km - Ki) - S1)) in
    let! G := inv (#1 + f * inv (Gm / (Gm - Gi) - S2)) in
    Ret (K, G)
  else if String.eqb mode_ "strain" then
    let! K := #1 - f * inv (Km / (Km - Ki) - S1) in
    let! G := #1 - f * inv (Gm / (Gm - Gi) - S2) in
    Ret (K, G)
  else Raise UnboundLocalError.

(** EM.py 862-899, [EM.SC_flex]. [G_eff] starts from [Km] (line 891). *)
Definition EM_SC_flex_step (f Km Ki Gm Gi K_eff G_eff : fl) : outcome (fl * fl) :=
  let! nu := #(1/2) * (#3 * K_eff - #2 * G_eff) / (#3 * K_eff + G_eff) in
  let! S1 := #1 / #3 * (#1 + nu) / (#1 - nu) in
  let! S2 := #2 / #15 * (#4 - #5 * nu) / (#1 - nu) in
  let! K_eff := (#1 - f * K_eff * (Km - Ki) / (Km * (K_eff - Ki))
                      * inv (K_eff / (K_eff - Ki) - S1)) * Km in
  let! G_eff := (#1 - f * G_eff * (Gm - Gi) / (Gm * (G_eff - Gi))
                      * inv (G_eff / (G_eff - Gi) - S2)) * Gm in
  Ret (K_eff, G_eff).
Fixpoint EM_SC_flex_loop (n : nat) (f Km Ki Gm Gi K_eff G_eff : fl) : outcome (fl * fl) :=
  match n with
  | O => Ret (K_eff, G_eff)
  | S n => call! (K_eff, G_eff) := EM_SC_flex_step f Km Ki Gm Gi K_eff G_eff in
           EM_SC_flex_loop n f Km Ki Gm Gi K_eff G_eff
  end.
Definition EM_SC_flex (f : fl) (iter_n : Z) (Km Ki Gm Gi : fl) : outcome (fl * fl) :=
  EM_SC_flex_loop (Z.to_nat iter_n) f Km Ki Gm Gi Km Km.

(** EM.py 902-935, [EM.MT_average]. *)
Definition EM_MT_average (f Kmat Gmat K1 G1 K2 G2 : fl) : outcome (fl * fl) :=
  let! possion := (#3 * Kmat - #2 * Gmat) / (#2 * (#3 * Kmat + Gmat)) in
  let! alpha := (#1 + possion) / (#3 * (#1 - possion)) in
  let! beta := #2 * (#4 - #5 * possion) / (#15 * (#1 - possion)) in
  let! K_ave := (f * Kmat * K1 / (Kmat - (Kmat - K1) * alpha)
                 + (#1 - f) * Kmat * K2 / (Kmat - (Kmat - K2) * alpha))
                / (f * Kmat / (Kmat - (Kmat - K1) * alpha)
                   + (#1 - f) * Kmat / (Kmat - (Kmat - K2) * alpha)) in
  let! G_ave := (f * Gmat * G1 / (Gmat - (Gmat - G1) * beta)
                 + (#1 - f) * Gmat * G2 / (Gmat - (Gmat - G2) * beta))
                / (f * Gmat / (Gmat - (Gmat - G1) * beta)
                   + (#1 - f) * Gmat / (Gmat - (Gmat - G2) * beta)) in
  Ret (K_ave, G_ave).

End EM2.
