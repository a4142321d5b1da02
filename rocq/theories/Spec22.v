(** * Spec22: what is assumed of a machine's literals and library functions, and what an accurate double-precision result is. *)
From Coq Require Import ZArith.
From Flocq Require Import IEEE754.BinarySingleNaN.
From Verif Require Import Fl M_Array M_Round Spec18 M_Double.
Open Scope R_scope.

(** The real number that a finite double is. *)
Definition dval (x : double) : R := B2R x.
Definition dfinite (x : double) : Prop := is_finite x = true.
(** A double nearest to r: no finite double is closer, and with a tie the one whose last digit is even is taken. *)
Definition nearest (r : R) : R :=
  Generic_fmt.round Zaux.radix2 (FLT.FLT_exp (-1074) 53) (Round_NE.ZnearestE) r.
(** Literals in the range of doubles are read as the nearest double. *)
Definition reads_literals (M : machine) : Prop :=
  forall r, Rabs r <= 2 ^ 1023 -> dfinite (literal M r) /\ dval (literal M r) = nearest r.
(** Neither overflow nor underflow: the number is 0 or in the range of normal doubles, with a factor 2 to spare. *)
Definition in_range (y : R) : Prop := y = 0 \/ / 2 ^ 1022 <= Rabs y <= 2 ^ 1023 / 2.
(** Inside its domain and the range, a library function has a relative error of at most u. *)
Definition library_accurate (u : R) (M : machine) : Prop :=
  (forall o x, dfinite x -> def1 o (dval x) -> in_range (rsem1 o (dval x)) ->
     dfinite (libm1 M o x) /\ near u (rsem1 o (dval x)) (dval (libm1 M o x))) /\
  (forall o x y, dfinite x -> dfinite y -> def2 o (dval x) (dval y) -> in_range (rsem2 o (dval x) (dval y)) ->
     dfinite (libm2 M o x y) /\ near u (rsem2 o (dval x) (dval y)) (dval (libm2 M o x y))).
(** The exact result [o] consists of finite numbers and the doubles ds differ from them by relative errors of at most ns
    units u, one count per result; none of them is an infinity or NaN. *)
Definition double_accurate (u : R) (o : outcome (list fl)) (ns : list nat) (ds : list double) : Prop :=
  Forall dfinite ds /\ accurate u o ns (Some (map dval ds)).
(** The unit of rounding of double precision. *)
Definition u64 : R := / 2 ^ 53.
(** A positive argument of moderate size. *)
Definition size (n : nat) (x : double) : Prop := dfinite x /\ / 2 ^ n <= dval x <= 2 ^ n.
(** The same, or zero. *)
Definition size0 (n : nat) (x : double) : Prop := dfinite x /\ (dval x = 0 \/ / 2 ^ n <= dval x <= 2 ^ n).
(** The same, or negative. *)
Definition sized (n : nat) (x : double) : Prop := dfinite x /\ (dval x = 0 \/ / 2 ^ n <= Rabs (dval x) <= 2 ^ n).

(** [quiet]: a run in which every operation is applied inside its domain and neither overflows nor underflows. *)
Section Quiet.
Variable M : machine.
Fixpoint quiet_expr (env : list double) (e : expr) : Prop :=
  match e with
  | EVar n => True
  | ELit r => in_range r
  | EOp1 o e =>
      quiet_expr env e /\ def1 o (dval (dev M env e)) /\ in_range (rsem1 o (dval (dev M env e)))
  | EOp2 o e1 e2 =>
      quiet_expr env e1 /\ quiet_expr env e2 /\ def2 o (dval (dev M env e1)) (dval (dev M env e2)) /\
      in_range (rsem2 o (dval (dev M env e1)) (dval (dev M env e2)))
  end.
Fixpoint quiet (p : prog) (env : list double) : Prop :=
  match p with
  | PRet es => forall e, In e es -> quiet_expr env e
  | PLet e p => quiet_expr env e /\ quiet p (env ++ [dev M env e])
  | PIf c e1 e2 p q =>
      quiet_expr env e1 /\ quiet_expr env e2 /\ if dcmp c (dev M env e1) (dev M env e2) then quiet p env else quiet q env
  end.
End Quiet.
