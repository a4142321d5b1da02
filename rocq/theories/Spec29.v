(** * Spec29: Python floats against NumPy floats. *)
From Verif Require Import Fl M_Array.

(** The same number, or a complex number, about which the model says nothing. *)
Definition same_or_complex (y y' : fl) : Prop := y = y' \/ y = Und.
Definition same_or_complex_val (v w : val) : Prop :=
  match v, w with VS y, VS y' => same_or_complex y y' | VA l, VA l' => Forall2 same_or_complex l l' | _, _ => False end.

(** The divisions of a formula are by literals that are not 0, and there is no power with a variable exponent. *)
Fixpoint by_literals (e : expr) : Prop :=
  match e with
  | EVar _ | ELit _ => True
  | EOp1 _ e => by_literals e
  | EOp2 o a b =>
      by_literals a /\ by_literals b /\
      match o with ODiv => match b with ELit r => r <> 0%R | _ => False end | OPow => False | _ => True end
  end.
Fixpoint divides_by_literals (p : prog) : Prop :=
  match p with
  | PRet es => fold_right (fun e P => by_literals e /\ P) True es
  | PLet e p => by_literals e /\ divides_by_literals p
  | PIf _ e1 e2 p q => by_literals e1 /\ by_literals e2 /\ divides_by_literals p /\ divides_by_literals q
  end.
