(** * Spec16: what it means for a call with arrays to act element by element. *)
From Verif Require Import Fl M_Array.

(** Element i of an argument or result; numbers and one-element arrays are the same at every i. *)
Definition elem (i : nat) (v : val) : fl :=
  match v with VS x => x | VA [x] => x | VA l => nth i l Und end.
(** A number, a one-element array or an array of n elements. *)
Definition size_ok (n : nat) (v : val) : Prop :=
  match v with VS _ => True | VA l => length l = 1%nat \/ length l = n end.
(** A number or array that is really there: no element is an exception. *)
Definition no_exc (x : fl) : Prop := match x with Exc _ => False | _ => True end.
Definition is_value (v : val) : Prop := match v with VS x => no_exc x | VA l => forall x, In x l -> no_exc x end.
Definition args_ok (n : nat) (env : list val) : Prop := forall v, In v env -> size_ok n v /\ is_value v.
(** A program without [if]. *)
Fixpoint straight (p : prog) : bool :=
  match p with PRet _ => true | PLet _ p => straight p | PIf _ _ _ _ _ => false end.
(** The result of a modelled function as a list. *)
Definition out1 (o : outcome fl) : outcome (list fl) := call! a := o in rets [a].
Definition out2 (o : outcome (fl * fl)) : outcome (list fl) := call! (a, b) := o in rets [a; b].
Definition out3 (o : outcome (fl * fl * fl)) : outcome (list fl) := call! (a, b, c) := o in rets [a; b; c].
Definition out4 (o : outcome (fl * fl * fl * fl)) : outcome (list fl) := call! (a, b, c, d) := o in rets [a; b; c; d].
Definition out5 (o : outcome (fl * fl * fl * fl * fl)) : outcome (list fl) :=
  call! (a, b, c, d, e) := o in rets [a; b; c; d; e].
Definition out6 (o : outcome (fl * fl * fl * fl * fl * fl)) : outcome (list fl) :=
  call! (a, b, c, d, e, f) := o in rets [a; b; c; d; e; f].
Definition out7 (o : outcome (fl * fl * fl * fl * fl * fl * fl)) : outcome (list fl) :=
  call! (a, b, c, d, e, f, g) := o in rets [a; b; c; d; e; f; g].
(** The first test of the program compares argument j. *)
Fixpoint tests_arg (j : nat) (p : prog) : bool :=
  match p with
  | PRet _ => false
  | PLet _ p => tests_arg j p
  | PIf _ e _ _ _ => match e with EVar k => Nat.eqb j k | _ => false end
  end.
(** Which results depend on an array argument: [kinds p] of the arguments (true for an array) is that of the results. *)
Definition is_arr (v : val) : bool := match v with VS _ => false | VA _ => true end.
Fixpoint kind (ks : list bool) (e : expr) : bool :=
  match e with
  | EVar n => nth n ks false
  | ELit _ => false
  | EOp1 _ e => kind ks e
  | EOp2 _ e1 e2 => kind ks e1 || kind ks e2
  end.
Fixpoint kinds (p : prog) (ks : list bool) : list bool :=
  match p with
  | PRet es => map (kind ks) es
  | PLet e p => kinds p (ks ++ [kind ks e])
  | PIf _ _ _ p _ => kinds p ks
  end.
(** A number or an array of exactly n elements. *)
Definition full (n : nat) (v : val) : Prop := match v with VS _ => True | VA l => length l = n end.
