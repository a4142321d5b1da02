(** * Model of rockphypy/utils.py (class utils). *)
From Verif Require Import Fl.
Open Scope fl_scope.

(** 6x6 arrays are lists of rows. *)
Definition mat := list (list fl).

Section Utils.
Variable m : mode.
Local Infix "/" := (fdiv m) : fl_scope.

(** utils.py 13-33, [utils.V]. [4./3] is evaluated to the real 4/3. *)
Definition utils_V (K G rho : fl) : outcome (fl * fl) :=
  let! Vp := fsqrt ((K + #(4/3) * G) / rho) * #1000 in
  let! Vs := fsqrt (G / rho) * #1000 in
  Ret (Vp, Vs).

(** utils.py 36-53, [utils.poi]. *)
Definition utils_poi (K G : fl) : outcome fl :=
  let! nu := (#3 * K - #2 * G) / (#6 * K + #2 * G) in
  Ret nu.

(** utils.py 56-73, [utils.lame]. *)
Definition utils_lame (K G : fl) : outcome fl :=
  let! lamda := K - #2 * G / #3 in
  Ret lamda.

(** utils.py 76-109, [utils.M_from_V]. *)
Definition utils_M_from_V (den vp vs : fl) : outcome (fl * fl) :=
  let! K := den * #1000 * (vp ^^ 2 - #4 * vs ^^ 2 / #3) in
  let! G := den * #1000 * vs ^^ 2 in
  let! K := K / #1000000000 in
  let! G := G / #1000000000 in
  Ret (K, G).

(** utils.py 112-141, [utils.write_HTI_matrix]. *)
Definition utils_write_HTI_matrix (C11 C33 C13 C44 C55 : fl) : outcome mat :=
  let! C23 := C33 - #2 * C44 in
  Ret [[C11; C13; C13; #0; #0; #0];
       [C13; C33; C23; #0; #0; #0];
       [C13; C23; C33; #0; #0; #0];
       [#0; #0; #0; C44; #0; #0];
       [#0; #0; #0; #0; C55; #0];
       [#0; #0; #0; #0; #0; C55]].

(** utils.py 144-175, [utils.write_VTI_compliance]. *)
Definition utils_write_VTI_compliance (S11 S12 S13 S33 S44 : fl) : outcome mat :=
  let! S66 := #2 * (S11 - S12) in
  Ret [[S11; S12; S13; #0; #0; #0];
       [S12; S11; S13; #0; #0; #0];
       [S13; S13; S33; #0; #0; #0];
       [#0; #0; #0; S44; #0; #0];
       [#0; #0; #0; #0; S44; #0];
       [#0; #0; #0; #0; #0; S66]].

(** utils.py 178-208, [utils.write_VTI_matrix]. *)
Definition utils_write_VTI_matrix (C11 C33 C13 C44 C66 : fl) : outcome mat :=
  let! C12 := C11 - #2 * C66 in
  Ret [[C11; C12; C13; #0; #0; #0];
       [C12; C11; C13; #0; #0; #0];
       [C13; C13; C33; #0; #0; #0];
       [#0; #0; #0; C44; #0; #0];
       [#0; #0; #0; #0; C44; #0];
       [#0; #0; #0; #0; #0; C66]].

(** utils.py 211-247, [utils.write_matrix]. *)
Definition utils_write_matrix (C11 C22 C33 C12 C13 C23 C44 C55 C66 : fl) : outcome mat :=
  Ret [[C11; C12; C13; #0; #0; #0];
       [C12; C22; C23; #0; #0; #0];
       [C13; C23; C33; #0; #0; #0];
       [#0; #0; #0; C44; #0; #0];
       [#0; #0; #0; #0; C55; #0];
       [#0; #0; #0; #0; #0; C66]].

(** utils.py 250-274, [utils.write_iso]. *)
Definition utils_write_iso (K G : fl) : outcome mat :=
  let! lamda := K - #2 * G / #3 in
  Ret [[lamda + #2 * G; lamda; lamda; #0; #0; #0];
       [lamda; lamda + #2 * G; lamda; #0; #0; #0];
       [lamda; lamda; lamda + #2 * G; #0; #0; #0];
       [#0; #0; #0; G; #0; #0];
       [#0; #0; #0; #0; G; #0];
       [#0; #0; #0; #0; #0; G]].

(** utils.py 277-294, [utils.crack_por]. *)
Definition utils_crack_por (crd alpha : fl) : outcome fl :=
  let! cpor := #4 * Fin PI * alpha * crd / #3 in
  Ret cpor.

(** utils.py 297-331, [utils.v_to_c_VTI]. *)
Definition utils_v_to_c_VTI (Vp0 Vp45 Vp90 Vs0 Vsh90 den : fl) : outcome mat :=
  let! C11 := den * Vp90 ^^ 2 in
  let! C12 := C11 - #2 * den * Vsh90 ^^ 2 in
  let! C33 := den * Vp0 ^^ 2 in
  let! C44 := den * Vs0 ^^ 2 in
  let! M := #4 * den ^^ 2 * Vp45 ^^ 4
            - #2 * den * Vp45 ^^ 2 * (C11 + C33 + #2 * C44)
            + (C11 + C44) * (C33 + C44) in
  let! C13 := - C44 + fsqrt M in
  let! C66 := #(1/2) * (C11 - C12) in
  utils_write_VTI_matrix C11 C33 C13 C44 C66.

End Utils.
