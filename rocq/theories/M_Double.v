(** * M_Double: the formulas of M_ArrayFns.v run on IEEE 754 double-precision numbers.

    M_Round.v runs the programs with arbitrary relative errors and without overflow or underflow. This file runs them on the
    numbers that Python and NumPy compute with: doubles, as defined by the Flocq library (finite numbers of 53 binary digits
    with exponents down to -1074, signed zeros, infinities, NaN; + - * / and sqrt round to the nearest double, ties to even,
    and overflow to infinity). A program has one result.

    The functions of the C library (powers, exp, log, ...) are not fixed by IEEE 754: they are the parameter [libm1],
    [libm2]. [literal r] is the double that Python's parser reads for the number r; a constant subexpression such as 4/3 is
    one literal (Python's 4/3 is the double nearest to it too). Simplifications: Python's floats differ in raising
    ZeroDivisionError and OverflowError where NumPy returns inf; NumPy's square x*x for x**2 is one of the allowed [libm1]. *)
From Coq Require Import ZArith.
From Flocq Require Import IEEE754.BinarySingleNaN.
From Verif Require Import Fl M_Array.
Open Scope R_scope.

Definition double : Type := binary_float 53 1024.
#[global] Instance prec_pos : FLX.Prec_gt_0 53 := eq_refl.
#[global] Instance prec_emax : Prec_lt_emax 53 1024 := eq_refl.

Record machine := { literal : R -> double; libm1 : op1 -> double -> double; libm2 : op2 -> double -> double -> double }.

Section Machine.
Variable M : machine.
Definition dsem1 (o : op1) (x : double) : double :=
  match o with ONeg => Bopp x | OSqrt => Bsqrt mode_NE x | _ => libm1 M o x end.
(** [np.maximum] of numbers. *)
Definition dmax (x y : double) : double := if Bleb x y then y else x.
Definition dsem2 (o : op2) (x y : double) : double :=
  match o with
  | OAdd => Bplus mode_NE x y | OSub => Bminus mode_NE x y | OMul => Bmult mode_NE x y
  | ODiv | ODivN => Bdiv mode_NE x y | OMaximum => dmax x y | OPow | OPowN => libm2 M o x y
  end.
Definition dcmp (c : cmp) : double -> double -> bool := match c with CLt => Bltb | CLe => Bleb | CEq => Beqb end.
Fixpoint dev (env : list double) (e : expr) : double :=
  match e with
  | EVar n => nth n env (B754_zero false)
  | ELit r => literal M r
  | EOp1 o e => dsem1 o (dev env e)
  | EOp2 o e1 e2 => dsem2 o (dev env e1) (dev env e2)
  end.
Fixpoint drun (p : prog) (env : list double) : list double :=
  match p with
  | PRet es => map (dev env) es
  | PLet e p => drun p (env ++ [dev env e])
  | PIf c e1 e2 p q => if dcmp c (dev env e1) (dev env e2) then drun p env else drun q env
  end.
End Machine.
