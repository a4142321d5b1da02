(** * Spec28: samples picked out of the arguments and of the results. *)
From Verif Require Import Fl M_Array.

(** The samples with the given numbers, in that order: [x[sel]]. A number stays as it is. *)
Definition pick (sel : list nat) (v : val) : val :=
  match v with VS x => VS x | VA l => VA (map (fun i => nth i l Und) sel) end.
(** [x[:k]], [x[k:]], and [np.concatenate]. *)
Definition before (k : nat) (v : val) : val := match v with VS x => VS x | VA l => VA (firstn k l) end.
Definition after (k : nat) (v : val) : val := match v with VS x => VS x | VA l => VA (skipn k l) end.
Definition joined (v w out : val) : Prop :=
  match v, w with VS x, VS y => x = y /\ out = VS x | VA a, VA b => out = VA (a ++ b) | _, _ => False end.

(** The outcome with [f] applied to each result. *)
Definition results (f : val -> val) (o : outcome (list val)) : outcome (list val) := call! vs := o in Ret (map f vs).
(** Every array has n elements. *)
Definition all_full (n : nat) (env : list val) : Prop := forall l, In (VA l) env -> length l = n.
