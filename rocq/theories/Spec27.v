(** * Spec27: what it means for a function to take lists as it takes arrays. *)
From Verif Require Import Fl M_Array M_Int M_List.

Definition is_list (v : lval) : Prop := match v with LL _ => True | _ => False end.
(** A Python integer, a Python float or a list: no array and no NumPy number. *)
Definition plain_python (v : lval) : Prop := match v with LI _ | LF false _ | LL _ => True | _ => False end.

(** Whatever a call returns, it is what it returns with each list made an array. *)
Definition same_as_arrays (m : mode) (p : prog) (env : list lval) (calls : choices (list lval)) : Prop :=
  forall vs, In (Ret vs) calls -> run_arr m p (map as_array env) = Ret (map as_array vs).
(** Calls happen, and none returns. *)
Definition never_returns (calls : choices (list lval)) : Prop :=
  calls <> [] /\ forall vs, ~ In (Ret vs) calls.
