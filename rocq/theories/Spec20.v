(** * Spec20: physical dimensions and changes of units. *)
From Coq Require Export QArith Qreals.
From Verif Require Import Fl Cx M_Utils M_EM M_AVO M_Array.
Open Scope R_scope.

(** The exponents of length, mass and time. *)
Definition dim : Type := (Q * Q * Q)%type.
Definition dless : dim := (0, 0, 0)%Q.
Definition length_d : dim := (1, 0, 0)%Q.
Definition area : dim := (2, 0, 0)%Q.
Definition velocity : dim := (1, 0, -1)%Q.
Definition density : dim := (-3, 1, 0)%Q.
Definition stress : dim := (-1, 1, -2)%Q.
Definition compliance : dim := (1, -1, 2)%Q.
Definition viscosity : dim := (-1, 1, -1)%Q.
Definition frequency : dim := (0, 0, -1)%Q.

(** New units of length, mass and time: [l] times, [w] times, [t] times smaller than the old ones. *)
Record units := { ul : R; uw : R; ut : R }.
(** A number with dimension [d] is multiplied by this when the units change. *)
Definition factor (u : units) (d : dim) : R :=
  let '(a, b, c) := d in Rpower (ul u) (Q2R a) * Rpower (uw u) (Q2R b) * Rpower (ut u) (Q2R c).
(** The number [x], of dimension [d], in the new units. *)
Definition inu (u : units) (d : dim) (x : fl) : fl := match x with Fin r => Fin (factor u d * r) | y => y end.
Fixpoint inus (u : units) (ds : list dim) (xs : list fl) : list fl :=
  match ds, xs with d :: ds, x :: xs => inu u d x :: inus u ds xs | _, _ => [] end.
(** The result of a call, in the new units. *)
Definition res (u : units) (ds : list dim) (o : outcome (list fl)) : outcome (list fl) :=
  match o with Ret xs => Ret (inus u ds xs) | Raise e => Raise e | Unknown => Unknown end.
(** The same for numbers and arrays. *)
Definition inv_ (u : units) (d : dim) (v : val) : val := match v with VS x => VS (inu u d x) | VA l => VA (map (inu u d) l) end.
Fixpoint invs (u : units) (ds : list dim) (vs : list val) : list val :=
  match ds, vs with d :: ds, x :: xs => inv_ u d x :: invs u ds xs | _, _ => [] end.
Definition resv (u : units) (ds : list dim) (o : outcome (list val)) : outcome (list val) :=
  match o with Ret xs => Ret (invs u ds xs) | Raise e => Raise e | Unknown => Unknown end.
(** A complex number of dimension [d], and an array of numbers of dimension [d], in the new units. *)
Definition inc (u : units) (d : dim) (z : cx) : cx :=
  match z with CFin a b => CFin (factor u d * a) (factor u d * b) | CUnd => CUnd end.
Definition inl (u : units) (d : dim) (l : list fl) : list fl := map (inu u d) l.
Definition inm (u : units) (d : dim) (C : mat) : mat := map (map (inu u d)) C.
(** Tuples of results, with their dimensions. *)
Definition in2 u d1 d2 (t : fl * fl) := let '(x1, x2) := t in (inu u d1 x1, inu u d2 x2).
Definition in3 u d1 d2 d3 (t : fl * fl * fl) := let '(x1, x2, x3) := t in (inu u d1 x1, inu u d2 x2, inu u d3 x3).
Definition in4 u d1 d2 d3 d4 (t : fl * fl * fl * fl) := let '(x1, x2, x3, x4) := t in (inu u d1 x1, inu u d2 x2, inu u d3 x3, inu u d4 x4).
Definition in5 u d1 d2 d3 d4 d5 (t : fl * fl * fl * fl * fl) :=
  let '(x1, x2, x3, x4, x5) := t in (inu u d1 x1, inu u d2 x2, inu u d3 x3, inu u d4 x4, inu u d5 x5).
Definition in6 u d1 d2 d3 d4 d5 d6 (t : fl * fl * fl * fl * fl * fl) :=
  let '(x1, x2, x3, x4, x5, x6) := t in (inu u d1 x1, inu u d2 x2, inu u d3 x3, inu u d4 x4, inu u d5 x5, inu u d6 x6).
(** The five stiffnesses or the matrix returned by [EM.Eshelby_Cheng]. *)
Definition inec u (r : ec_res) : ec_res :=
  match r with
  | EC_array a b c d e => EC_array (inu u stress a) (inu u stress b) (inu u stress c) (inu u stress d) (inu u stress e)
  | EC_mat C => EC_mat (inm u stress C)
  end.
(** Elastic impedances. *)
Definition impedance : dim := (-2, 1, -1)%Q.
Definition inei u (r : EI_result) : EI_result :=
  {| EI_pp := inu u impedance (EI_pp r); EI_psv := inu u impedance (EI_psv r); EI_svp := inu u impedance (EI_svp r);
     EI_svsv := inu u impedance (EI_svsv r); EI_shsh := inu u impedance (EI_shsh r) |}.
(** The result of a call, after [f]; exceptions are unchanged. *)
Definition after {A} (f : A -> A) (o : outcome A) : outcome A := call! a := o in Ret (f a).
(** A function given numbers or arrays of dimensions [ins] returns numbers or arrays of dimensions [outs], in all units. *)
Definition unit_covariant (m : mode) (p : prog) (ins outs : list dim) : Prop :=
  forall u xs, length xs = length ins -> run_arr m p (invs u ins xs) = resv u outs (run_arr m p xs).
