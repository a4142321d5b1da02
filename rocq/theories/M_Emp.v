(** * Model of rockphypy/Emp.py (class Empirical). *)
From Verif Require Import Fl.
Open Scope fl_scope.

(** Boolean indexing [a[mask]], the mask being computed elementwise from the same array. [Unknown] when the model does
    not determine a comparison (infinite entries). *)
Fixpoint fmask (p : fl -> option bool) (a : list fl) : outcome (list fl) :=
  match a with
  | [] => Ret []
  | x :: a' =>
      match p x with
      | Some b => call! r := fmask p a' in Ret (if b then x :: r else r)
      | None => Unknown
      end
  end.
(** [&] of two masks. *)
Definition mand (p q : fl -> option bool) (x : fl) : option bool :=
  match p x, q x with Some a, Some b => Some (a && b) | _, _ => None end.

Section Emp.
Variable m : mode.
Local Infix "/" := (fdiv m) : fl_scope.

(** Emp.py 12-34, [Empirical.krief]; returns (lamda, G, K). *)
Definition Emp_krief (phi Kg Gg : fl) : outcome (fl * fl * fl) :=
  let! a0 := #1 - fpow m (#1 - phi) (#3 / (#1 - phi)) in
  let! G := (#1 - a0) * Gg in
  let! K := (#1 - a0) * Kg in
  let! lamda := K - #2 * G / #3 in
  Ret (lamda, G, K).

(** Emp.py 37-64, [Empirical.esti_VS]; [x**-1] is [1/x]. *)
Definition Emp_esti_VS (Vp vsh : fl) : outcome fl :=
  let! Vs_sand := #(80416/100000) * Vp / #1000 - #(85588/100000) in
  let! Vs_shale := #(76969/100000) * Vp / #1000 - #(86735/100000) in
  let! Vs_arith := (#1 - vsh) * Vs_sand + vsh * Vs_shale in
  let! Vs_harm := #1 / ((#1 - vsh) / Vs_sand + vsh / Vs_shale) in
  let! Vs := #(5/10) * (Vs_arith + Vs_harm) in
  Ret (Vs * #1000).

(** Emp.py 67-84, [Empirical.han]. *)
Definition Emp_han (phi C : fl) : outcome (fl * fl) :=
  let! vp := #(559/100) - #(693/100) * phi - #(281/100) * C in
  let! vs := #(352/100) - #(491/100) * phi - #(189/100) * C in
  Ret (vp * #1000, vs * #1000).

(** Emp.py 87-107, [Empirical.ehrenberg]. *)
Definition Emp_ehrenberg (Z : fl) : outcome fl :=
  let! Z := Z / #1000 in
  let! phi := #(- (92200747/1000000000)) * Z + #(4802422/10000000) in
  Ret phi.

(** Emp.py 110-127, [Empirical.yu_segment_trend], on an array. *)
Definition Emp_yu_segment_trend (Z : list fl) : outcome (list fl) :=
  call! Z1 := fmask (fun z => fleb z #2630) Z in
  call! Z2 := fmask (fun z => fltb #2630 z) Z in
  let V1 := map (fun z => #(1707998/1000) + #(66/100) * z) Z1 in
  let V2 := map (fun z => #(120084/100) + #(853/1000) * z) Z2 in
  Ret (V1 ++ V2)%list.

(** Emp.py 130-150, [Empirical.ramm_porosity]. *)
Definition Emp_ramm_porosity (Z : fl) (HB : bool) : outcome fl :=
  let! phi := (if HB then #(464/10) - #(85/10000) * Z else #(427/10) - #(69/10000) * Z) in
  let! r := phi / #100 in
  Ret r.

(** Emp.py 153-169, [Empirical.ramm_porosity_segment], one array element: the mask [phi1>phi2] on both sides of the
    assignment of line 168 is the same, so element [i] receives [phi2[i]] exactly when [phi1[i]>phi2[i]]. *)
Definition Emp_ramm_segment_elem (z : fl) : outcome fl :=
  let phi1 := #45 * fexp (#(- (25/100000)) * z) in
  let phi2 := #25 - #(13/1000) * (z - #2500) in
  match fltb phi2 phi1 with
  | Some true => Ret phi2
  | Some false => Ret phi1
  | None => Unknown
  end.
Fixpoint Emp_ramm_porosity_segment (Z : list fl) : outcome (list fl) :=
  match Z with
  | [] => Ret []
  | z :: Z' => call! p := Emp_ramm_segment_elem z in call! r := Emp_ramm_porosity_segment Z' in Ret (p :: r)
  end.

(** Emp.py 172-196, [Empirical.empirical_StPeter]. *)
Definition Emp_StPeter (Pe : fl) (sample : Z) : outcome (fl * fl) :=
  if Z.eqb sample 1 then
    let! Vp := #(421/100) + #(187/1000) * Pe - #(746/1000) * fexp (#(-24) * Pe) in
    let! Vs := #(258/100) + #(160/1000) * Pe - #(781/1000) * fexp (#(-20) * Pe) in
    Ret (Vp * #1000, Vs * #1000)
  else if Z.eqb sample 2 then
    let! Vp := #(455/100) + #(298/1000) * Pe - #(8/10) * fexp (#(-19) * Pe) in
    let! Vs := #(283/100) + #(195/1000) * Pe - #(741/1000) * fexp (#(-16) * Pe) in
    Ret (Vp * #1000, Vs * #1000)
  else Raise UnboundLocalError.

(** Emp.py 199-217, [Empirical.Scherbaum]. *)
Definition Emp_Scherbaum (Z : fl) : outcome fl :=
  let! V := #2325 + #(51/100) * Z in Ret V.

(** Emp.py 220-234, [Empirical.Sclater]. *)
Definition Emp_Sclater (phi : fl) : outcome fl :=
  let! Z := #(37/10) * flog (#(49/100) / phi) in Ret Z.

(** Emp.py 237-251, [Empirical.Storvoll]. *)
Definition Emp_Storvoll (Z : fl) : outcome fl :=
  let! V := #1 / #(176/100) * Z + #2600 in Ret V.

(** Emp.py 254-269, [Empirical.Hillis]. *)
Definition Emp_Hillis (Z : fl) : outcome fl :=
  let! transit := #(1359/10) - #(2022/100) * Z / #1000 in
  let! V := #(3048/10) * #1000 / transit in
  Ret V.

(** Emp.py 272-291, [Empirical.Japsen], on an array. *)
Definition Emp_Japsen (Z : list fl) : outcome (list fl) :=
  call! Z1 := fmask (fun z => fltb z #1393) Z in
  call! Z2 := fmask (mand (fun z => fleb #1393 z) (fun z => fltb z #2000)) Z in
  call! Z3 := fmask (mand (fun z => fleb #2000 z) (fun z => fltb z #3500)) Z in
  call! Z4 := fmask (mand (fun z => fleb #3500 z) (fun z => fltb z #5300)) Z in
  let V1 := map (fun z => #1550 + #(6/10) * z) Z1 in
  let V2 := map (fun z => #(-400) + #2 * z) Z2 in
  let V3 := map (fun z => #2600 + #(5/10) * z) Z3 in
  let V4 := map (fun z => #3475 + #(25/100) * z) Z4 in
  Ret (V1 ++ V2 ++ V3 ++ V4)%list.

(** Emp.py 294-309, [Empirical.hjelstuen]. *)
Definition Emp_hjelstuen (Z : fl) : outcome fl :=
  let! V := #(187/100) + #(55/100) * (Z / #1000) in
  Ret (V * #1000).

(** Emp.py 312-326, [Empirical.Cp]. *)
Definition Emp_Cp (phi : fl) : outcome fl :=
  let! n := #20 - #34 * phi + #14 * phi ^^ 2 in Ret n.
End Emp.
