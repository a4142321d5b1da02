(** * M_Round: the formulas of M_ArrayFns.v run in floating point.

    Fl.v computes with exact real numbers. This file runs the same programs the way a machine does: every operation returns
    its exact result with a relative error of at most u (the standard model of floating-point arithmetic; u = 2^-53 for the
    correctly rounded operations + - * / sqrt of IEEE double precision, and a few times that for the other functions of the
    C library that Python and NumPy call). The error of each operation is arbitrary within that bound, so a program has many
    possible results and [fprog] is a relation.

    Simplifications: no overflow and no underflow (a result is never too large or too small for a double); a constant
    subexpression such as 4/3 counts as one literal with one error; a name that the model inlines is computed at each use,
    with possibly different errors (the relation then allows more results than the code can return). An operation outside its
    domain (division by zero, square root of a negative number, ...) has no claim: [None]. *)
From Verif Require Import Fl M_Array.
Open Scope R_scope.

(** The operations on real numbers and where they are defined. *)
Definition rsem1 (o : op1) (x : R) : R :=
  match o with
  | ONeg => - x | OSqrt => sqrt x | OExp => exp x | OLog => ln x | OSin => sin x | OCos => cos x | OTan => tan x
  | OArcsin => asin x | OArccos => acos x | OArctan => atan x | OCosh => cosh x | ODeg2rad => x * PI / 180
  | OPown n => x ^ n
  end.
Definition def1 (o : op1) (x : R) : Prop :=
  match o with
  | OSqrt => 0 <= x | OLog => 0 < x | OTan => cos x <> 0 | OArcsin | OArccos => -1 <= x <= 1 | _ => True
  end.
Definition rsem2 (o : op2) (x y : R) : R :=
  match o with
  | OAdd => x + y | OSub => x - y | OMul => x * y | ODiv | ODivN => x / y | OPow | OPowN => Rpower x y | OMaximum => Rmax x y
  end.
Definition def2 (o : op2) (x y : R) : Prop :=
  match o with ODiv | ODivN => y <> 0 | OPow | OPowN => 0 < x | _ => True end.

(** y is x with a relative error of at most u. *)
Definition near (u x y : R) : Prop := Rabs (y - x) <= u * Rabs x.
(** A literal: integers up to 2^53 are represented exactly. *)
Definition lit (u r y : R) : Prop :=
  near u r y /\ ((exists z, (Z.abs z <= 2 ^ 53)%Z /\ r = IZR z) -> y = r).
(** Negation and maximum are exact. *)
Definition round1 (u : R) (o : op1) (x y : R) : Prop :=
  match o with ONeg => y = - x | _ => near u (rsem1 o x) y end.
Definition round2 (u : R) (o : op2) (x1 x2 y : R) : Prop :=
  match o with OMaximum => y = Rmax x1 x2 | _ => near u (rsem2 o x1 x2) y end.

(** [fev u env e y]: y is a possible value of e. *)
Fixpoint fev (u : R) (env : list R) (e : expr) (y : option R) : Prop :=
  match e with
  | EVar n => y = Some (nth n env 0)
  | ELit r => exists y', y = Some y' /\ lit u r y'
  | EOp1 o e =>
      exists x, fev u env e x /\
        match x with
        | None => y = None
        | Some x => (def1 o x /\ exists y', y = Some y' /\ round1 u o x y') \/ (~ def1 o x /\ y = None)
        end
  | EOp2 o e1 e2 =>
      exists x1 x2, fev u env e1 x1 /\ fev u env e2 x2 /\
        match x1, x2 with
        | Some x1, Some x2 => (def2 o x1 x2 /\ exists y', y = Some y' /\ round2 u o x1 x2 y') \/ (~ def2 o x1 x2 /\ y = None)
        | _, _ => y = None
        end
  end.
Fixpoint fevs (u : R) (env : list R) (es : list expr) (ys : option (list R)) : Prop :=
  match es with
  | [] => ys = Some []
  | e :: es =>
      exists y z, fev u env e y /\ fevs u env es z /\
        ys = match y, z with Some y, Some z => Some (y :: z) | _, _ => None end
  end.
Definition rcmpb (c : cmp) : R -> R -> bool := match c with CLt => Rltb | CLe => Rleb | CEq => Reqb end.
(** [fprog u p env ys]: ys are possible results of p. A test compares the computed values. *)
Fixpoint fprog (u : R) (p : prog) (env : list R) (ys : option (list R)) : Prop :=
  match p with
  | PRet es => fevs u env es ys
  | PLet e p => exists x, fev u env e x /\ match x with None => ys = None | Some x => fprog u p (env ++ [x]) ys end
  | PIf c e1 e2 p q =>
      exists x1 x2, fev u env e1 x1 /\ fev u env e2 x2 /\
        match x1, x2 with
        | Some x1, Some x2 => if rcmpb c x1 x2 then fprog u p env ys else fprog u q env ys
        | _, _ => ys = None
        end
  end.
