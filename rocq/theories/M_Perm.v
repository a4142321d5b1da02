(** * Model of rockphypy/Perm.py (class Permeability). *)
From Verif Require Import Fl.
Open Scope fl_scope.

Section Perm.
Variable m : mode.
Local Infix "/" := (fdiv m) : fl_scope.

(** Perm.py 13-38, [Permeability.Kozeny_Carman]. *)
Definition Perm_Kozeny_Carman (phi d : fl) : outcome fl :=
  let! k := d ^^ 2 / #180 * phi ^^ 3 / (#1 - phi) ^^ 2 in
  Ret k.

(** Perm.py 41-63, [Permeability.Kozeny_Carman_Percolation]. *)
Definition Perm_Kozeny_Carman_Percolation (phi phic d B : fl) : outcome fl :=
  let! k := B * d ^^ 2 * (phi - phic) ^^ 3 / (#1 + phic - phi) ^^ 2 in
  Ret k.

(** Perm.py 66-86, [Permeability.Owolabi]. *)
Definition Perm_Owolabi (phi Swi : fl) : outcome (fl * fl) :=
  let! k_oil := #307 + (#26552 * (phi ^^ 2)) - (#34540 * (phi * Swi) ^^ 2) in
  let! k_gas := #(307/10) + (#2655 * (phi ^^ 2)) - (#3454 * (phi * Swi) ^^ 2) in
  Ret (k_oil, k_gas).

(** Perm.py 89-119, [Permeability.Perm_logs]. *)
Definition Perm_Perm_logs (phi Swi : fl) : outcome (fl * fl * fl * fl) :=
  let! k_tixier := #62500 * phi ^^ 6 / Swi ^^ 2 in
  let! k_Timur := #10000 * fpow m phi #(9/2) / Swi ^^ 2 in
  let! k_coates := #10000 * phi ^^ 4 * (#1 - Swi) ^^ 2 / Swi ^^ 2 in
  let! k_coates_Dumanoir := #352 * phi ^^ 4 / Swi ^^ 4 in
  Ret (k_tixier, k_Timur, k_coates, k_coates_Dumanoir).

(** Perm.py 122-150, [Permeability.Panda_Lake]. *)
Definition Perm_Panda_Lake (d C S tau phi : fl) : outcome fl :=
  let! k := d ^^ 2 * phi ^^ 3 * (C ^^ 3 * S + #3 * C ^^ 2 + #1) ^^ 2
            / (#72 * tau * (#1 - phi) ^^ 2 * (C ^^ 2 + #1) ^^ 2) in
  Ret k.

(** Perm.py 153-170, [Permeability.Panda_Lake_cem]. *)
Definition Perm_Panda_Lake_cem (phi d : fl) : outcome fl :=
  let! K := #(334/100) * (d ^^ 2) * ((phi ^^ 3) / (#1 - phi) ^^ 2) in
  Ret K.

(** Perm.py 173-191, [Permeability.Revil]. *)
Definition Perm_Revil (phi d : fl) : outcome fl :=
  let! k := #1000 * (d ^^ 2) * (fpow m phi #(9/2)) / #24 in
  Ret k.

(** Perm.py 194-222, [Permeability.Fredrich]. *)
Definition Perm_Fredrich (phi d b : fl) : outcome fl :=
  let! F := #(25/10) / phi in
  let! Sv := #6 * (#1 - phi) * d in
  let! k := #1 / (b * F) * (phi / Sv) ^^ 2 in
  Ret k.

(** Perm.py 225-247, [Permeability.Bloch]. *)
Definition Perm_Bloch (S C D : fl) : outcome (fl * fl) :=
  let! phi := #(- (61/10)) + (#(98/10) / S) + (#(17/100) * C) in
  let! k := fpow m #10 (#(- (467/100)) + (#(134/100) * D) + (#(408/100) / S) + #(342/100) * (C / #100)) in
  Ret (phi, k).

(** Perm.py 250-285, [Permeability.Bernabe]. *)
Definition Perm_Bernabe (phi crf w r : fl) : outcome fl :=
  let! phicrack := phi * crf in
  let! kcrack := (w ^^ 2) * phicrack / #30 in
  let! phitube := phi - phicrack in
  let! ktube := (r ^^ 2) * phitube / #20 in
  let! k := kcrack + ktube in
  Ret k.
End Perm.
