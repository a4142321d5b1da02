(** * Spec23: what a call may do to the arrays of its caller. *)
From Verif Require Import Fl M_Array M_Store.
Open Scope fl_scope.

(** The names refer to arrays of the store. *)
Definition in_store (h : store) (env : names) : Prop := forall l, In (RArr l) env -> (l < length h)%nat.
(** The arrays of [h] are in [h'], with the same contents. *)
Definition same_arrays (h h' : store) : Prop :=
  (length h <= length h')%nat /\ forall l, (l < length h)%nat -> nth l h' [] = nth l h [].
(** The same, but for one array. *)
Definition same_arrays_but (k : nat) (h h' : store) : Prop :=
  (length h <= length h')%nat /\ forall l, (l < length h)%nat -> l <> k -> nth l h' [] = nth l h [].
(** What the caller sees: the numbers and the contents of the arrays returned. *)
Definition contents (r : after names) : outcome (list val) :=
  match r with (h, Ret vs) => Ret (map (look h) vs) | (_, Raise e) => Raise e | (_, Unknown) => Unknown end.
(** The arrays among the results did not exist before the call, and no two results are the same array. *)
Definition new_arrays (h : store) (r : after names) : Prop :=
  match r with
  | (h', Ret vs) =>
      (forall l, In (RArr l) vs -> (length h <= l < length h')%nat) /\
      forall i j l, nth i vs (RNum Und) = RArr l -> nth j vs (RNum Und) = RArr l -> i = j
  | _ => True
  end.

(** The caller assigns to elements of array [l] in the course of the session. *)
Fixpoint edited (m : mode) (s : store * names) (acts : list action) (l : nat) : Prop :=
  match acts with
  | [] => False
  | a :: acts =>
      match a with AEdit x _ _ => nth x (snd s) (RNum Und) = RArr l | _ => False end \/ edited m (act m s a) acts l
  end.
(** Every function called in the session is in [fs] and gets its number of arguments. *)
Definition calls_only (fs : list (nat * code)) (acts : list action) : Prop :=
  forall f args, In (ACall f args) acts -> In (length args, f) fs.
(** The arguments named by their positions. *)
Definition pick (env : names) (args : list nat) : names := map (fun k => nth k env (RNum Und)) args.
