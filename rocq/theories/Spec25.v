(** * Spec25: what a user expects of missing samples (nan). *)
From Verif Require Import Fl M_Array Spec16.

(** The arguments with the k-th one replaced. *)
Definition fill (k : nat) (x : fl) (env : list fl) : list fl := firstn k env ++ x :: skipn (S k) env.

(** A missing argument shows in every result, unless the result is the same whatever the argument: no result is a number that
    another value of the missing argument would have changed. (A result [Und] is one that the model leaves open.) *)
Definition gap_shows (m : mode) (n : nat) (p : prog) : Prop :=
  forall env k out, length env = n -> (forall x, In x env -> no_exc x) -> (k < n)%nat -> nth k env Und = NaN -> run m p env = Ret out ->
  forall j, (j < length out)%nat -> nth j out Und = NaN \/ nth j out Und = Und \/
    forall x out', no_exc x -> run m p (fill k x env) = Ret out' -> nth j out' Und = nth j out Und \/ nth j out' Und = Und.

(** Arguments that agree at sample i, in all but the k-th. *)
Definition same_but (k i : nat) (env env' : list val) : Prop :=
  length env' = length env /\ forall j, j <> k -> elem i (nth j env' (VS Und)) = elem i (nth j env (VS Und)).
(** Arguments that agree at sample i. *)
Definition same_at (i : nat) (env env' : list val) : Prop := map (elem i) env' = map (elem i) env.
