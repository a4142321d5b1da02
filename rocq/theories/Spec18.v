(** * Spec18: inputs at which a formula can be evaluated in floating point, and distances between results. *)
From Verif Require Import Fl M_Array M_Round.
Open Scope R_scope.

(** Strictly inside the domain of an operation: small changes of the operands stay in the domain. *)
Definition inside1 (o : op1) (x : R) : Prop :=
  match o with
  | OSqrt | OLog => 0 < x | OTan => cos x <> 0 | OArcsin | OArccos => -1 < x < 1 | _ => True
  end.
Definition inside2 (o : op2) (x y : R) : Prop :=
  match o with ODiv | ODivN => y <> 0 | OPow | OPowN => 0 < x | _ => True end.
(** The exact value of an expression. *)
Fixpoint rval (xs : list R) (e : expr) : R :=
  match e with
  | EVar n => nth n xs 0
  | ELit r => r
  | EOp1 o e => rsem1 o (rval xs e)
  | EOp2 o e1 e2 => rsem2 o (rval xs e1) (rval xs e2)
  end.
(** Every operation of the program is strictly inside its domain, every name is an argument or was assigned before, and no
    test compares two equal numbers. *)
Fixpoint inside_expr (xs : list R) (e : expr) : Prop :=
  match e with
  | EVar n => (n < length xs)%nat
  | ELit _ => True
  | EOp1 o e => inside_expr xs e /\ inside1 o (rval xs e)
  | EOp2 o e1 e2 => inside_expr xs e1 /\ inside_expr xs e2 /\ inside2 o (rval xs e1) (rval xs e2)
  end.
Fixpoint inside (p : prog) (xs : list R) : Prop :=
  match p with
  | PRet es => forall e, In e es -> inside_expr xs e
  | PLet e p => inside_expr xs e /\ inside p (xs ++ [rval xs e])
  | PIf c e1 e2 p q =>
      inside_expr xs e1 /\ inside_expr xs e2 /\ rval xs e1 <> rval xs e2 /\
      if rcmpb c (rval xs e1) (rval xs e2) then inside p xs else inside q xs
  end.
(** Element by element, the numbers differ by at most eps. *)
Definition close (eps : R) (xs ys : list R) : Prop := Forall2 (fun x y => Rabs (y - x) <= eps) xs ys.
(** Relative error of at most n units of rounding. *)
Definition rounded (u : R) (n : nat) (x y : R) : Prop := Rabs (y - x) <= INR n * u * Rabs x.
(** [o], an exact result, consists of finite numbers, and the computed results ys differ from them by relative errors of at
    most ns units of rounding, one count per result. *)
Definition accurate (u : R) (o : outcome (list fl)) (ns : list nat) (ys : option (list R)) : Prop :=
  exists rs ys', o = Ret (map Fin rs) /\ ys = Some ys' /\ length rs = length ns /\
    Forall2 (fun rn y => rounded u (snd rn) (fst rn) y) (combine rs ns) ys'.
(** Every name of a program with n arguments is an argument or was assigned before. *)
Fixpoint closed_expr (n : nat) (e : expr) : Prop :=
  match e with
  | EVar k => (k < n)%nat | ELit _ => True
  | EOp1 _ e => closed_expr n e | EOp2 _ e1 e2 => closed_expr n e1 /\ closed_expr n e2
  end.
Fixpoint closed (n : nat) (p : prog) : Prop :=
  match p with
  | PRet es => forall e, In e es -> closed_expr n e
  | PLet e p => closed_expr n e /\ closed (S n) p
  | PIf _ e1 e2 p q => closed_expr n e1 /\ closed_expr n e2 /\ closed n p /\ closed n q
  end.
