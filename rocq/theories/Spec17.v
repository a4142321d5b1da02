(** * Spec17: what it means for a call with two-dimensional arrays to act element by element. *)
From Verif Require Import Fl M_Utils M_Anis M_AVO M_Array Spec16 M_Grid.
Open Scope fl_scope.

(** Element (i, j): a number is the same everywhere, one row is every row, one column is every column. *)
Definition entry (i j : nat) (v : gval) : fl :=
  match v with
  | GS x => x
  | GA _ r c f => f (match r with 1%nat => 0%nat | _ => i end) (match c with 1%nat => 0%nat | _ => j end)
  end.
(** A number or an array that stretches to [n] rows and [k] columns. *)
Definition gsize_ok (n k : nat) (v : gval) : Prop :=
  match v with GS _ => True | GA _ r c _ => (r = 1%nat \/ r = n) /\ (c = 1%nat \/ c = k) end.
(** No element is an exception. *)
Definition gis_value (v : gval) : Prop :=
  match v with GS x => no_exc x | GA _ r c f => forall i j, (i < r)%nat -> (j < c)%nat -> no_exc (f i j) end.
Definition gargs_ok (n k : nat) (env : list gval) : Prop := forall v, In v env -> gsize_ok n k v /\ gis_value v.
(** A one-dimensional array with the given elements. *)
Definition row (l : list R) : gval := GA 1 1 (length l) (fun _ j => Fin (nth j l 0%R)).
(** A table of [n] rows and [k] columns. *)
Definition is_table (n k : nat) (v : gval) : Prop := match v with GA 2 r c _ => r = n /\ c = k | _ => False end.
(** A one-dimensional array of n elements. *)
Definition is_row (n : nat) (v : gval) : Prop := match v with GA 1 r c _ => r = 1%nat /\ c = n | _ => False end.
(** The shape of a value in a table of [n] rows and [k] columns: how many axes, whether it has the [n] rows (or one), whether
    it has the [k] columns (or one). A number has no axis. *)
Definition shape := (nat * bool * bool)%type.
Definition has_shape (n k : nat) (s : shape) (v : gval) : Prop :=
  match v with
  | GS _ => s = (0%nat, false, false)
  | GA d r c _ => (0 < d)%nat /\ let '(d', a, b) := s in d = d' /\ r = (if a then n else 1%nat) /\ c = (if b then k else 1%nat)
  end.
Definition join (s t : shape) : shape :=
  let '(d, a, b) := s in let '(d', a', b') := t in (Nat.max d d', a || a', b || b').
(** The shape of a result: it has the axes, rows and columns of the values that it depends on. *)
Fixpoint eshape (ss : list shape) (e : expr) : shape :=
  match e with
  | EVar n => nth n ss (0%nat, false, false)
  | ELit _ => (0%nat, false, false)
  | EOp1 _ e => eshape ss e
  | EOp2 _ e1 e2 => join (eshape ss e1) (eshape ss e2)
  end.
Fixpoint pshapes (p : prog) (ss : list shape) : list shape :=
  match p with
  | PRet es => map (eshape ss) es
  | PLet e p => pshapes p (ss ++ [eshape ss e])
  | PIf _ _ _ p _ => pshapes p ss
  end.
(** The five elastic impedances as a list. *)
Definition out_EI (o : outcome EI_result) : outcome (list fl) :=
  call! r := o in rets [EI_pp r; EI_psv r; EI_svp r; EI_svsv r; EI_shsh r].
(** The number of columns of an array, or of rows. *)
Definition has_cols (c : nat) (v : gval) : Prop := match v with GS _ => False | GA _ _ c' _ => c' = c end.
Definition has_rows (r : nat) (v : gval) : Prop := match v with GS _ => False | GA _ r' _ _ => r' = r end.
(** Which results depend on argument [q] of [len] arguments. *)
Definition depends (p : prog) (len q : nat) : list bool := kinds p (map (Nat.eqb q) (seq 0 len)).
(** [AVO.Aki_Richards] for interface i. *)
Definition layer_call (m : mode) (theta : R) (vp1 vp2 vs1 vs2 den1 den2 : list R) (i : nat) :=
  AVO_Aki_Richards m (Fin theta) (Fin (nth i vp1 0%R)) (Fin (nth i vp2 0%R)) (Fin (nth i vs1 0%R)) (Fin (nth i vs2 0%R))
    (Fin (nth i den1 0%R)) (Fin (nth i den2 0%R)).
(** A log as samples. *)
Definition samples (Vp Vs rho : list R) : list (fl * fl * fl) :=
  map (fun i => (Fin (nth i Vp 0%R), Fin (nth i Vs 0%R), Fin (nth i rho 0%R))) (seq 0 (length Vp)).
(** The stiffnesses that [AVO.AVO_HTI] reads are there. *)
Definition stiff_ok (C : mat) : Prop :=
  no_exc (mget C 0 0) /\ no_exc (mget C 0 2) /\ no_exc (mget C 2 2) /\ no_exc (mget C 3 3) /\ no_exc (mget C 4 4) /\ no_exc (mget C 5 5).
