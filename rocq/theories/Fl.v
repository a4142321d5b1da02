(** * Fl: the numeric values the modelled Python code computes with.

    Real arithmetic is exact (no rounding, no overflow): see DESIGN.md, "Trusted base".
    What IS modelled of floating point is every way a computation can leave the
    finite numbers:

    - [Fin r]   a finite number;
    - [Inf]     an infinity, sign not tracked (IEEE +inf or -inf; the sign would
                need signed zeros, which exact reals do not have);
    - [NaN]     definitely an IEEE NaN;
    - [Und]     "no claim": the outcome depends on information the model does not
                track (for instance inf+inf with unknown signs);
    - [Exc e]   evaluating the expression raises the Python exception [e].

    The abstraction is sound for finite results: if the model says [Fin r], the
    exact-arithmetic run of the code produces [r] without raising. *)
From Coq Require Export Reals Lra Psatz String ZArith Bool List.
Export ListNotations.
Open Scope R_scope.

(** Python exceptions that the modelled code can raise. *)
Inductive exn := ZeroDivisionError | UnboundLocalError | IndexError | ValueError | TypeError.

(** Whether scalar arithmetic is done on Python floats (division by zero raises)
    or on NumPy floats/arrays (division by zero yields inf/nan with a warning). *)
Inductive mode := PyFloat | NumPy.

Inductive fl := Fin (r : R) | Inf | NaN | Und | Exc (e : exn).

(** Result of a call: a value, an exception, or "no claim". *)
Inductive outcome (A : Type) := Ret (a : A) | Raise (e : exn) | Unknown.
Arguments Ret {A} a.
Arguments Raise {A} e.
Arguments Unknown {A}.

(** A Python statement [x = e]: an exception in [e] aborts the call. *)
Definition bind {B} (x : fl) (k : fl -> outcome B) : outcome B :=
  match x with Exc e => Raise e | _ => k x end.

(** Calling another modelled function and using its result. *)
Definition call {A B} (x : outcome A) (k : A -> outcome B) : outcome B :=
  match x with Ret a => k a | Raise e => Raise e | Unknown => Unknown end.

(** ** Arithmetic *)

Definition fneg (x : fl) : fl :=
  match x with Fin a => Fin (- a) | y => y end.

Definition fadd (x y : fl) : fl :=
  match x, y with
  | Exc e, _ => Exc e
  | _, Exc e => Exc e
  | NaN, _ | _, NaN => NaN
  | Und, _ | _, Und => Und
  | Fin a, Fin b => Fin (a + b)
  | Inf, Fin _ | Fin _, Inf => Inf
  | Inf, Inf => Und
  end.

Definition fsub (x y : fl) : fl :=
  match x, y with
  | Exc e, _ => Exc e
  | _, Exc e => Exc e
  | NaN, _ | _, NaN => NaN
  | Und, _ | _, Und => Und
  | Fin a, Fin b => Fin (a - b)
  | Inf, Fin _ | Fin _, Inf => Inf
  | Inf, Inf => Und
  end.

Definition fmul (x y : fl) : fl :=
  match x, y with
  | Exc e, _ => Exc e
  | _, Exc e => Exc e
  | NaN, _ | _, NaN => NaN
  | Und, _ | _, Und => Und
  | Fin a, Fin b => Fin (a * b)
  | Inf, Fin b => if Req_EM_T b 0 then NaN else Inf
  | Fin a, Inf => if Req_EM_T a 0 then NaN else Inf
  | Inf, Inf => Inf
  end.

Definition fdiv (m : mode) (x y : fl) : fl :=
  match x, y with
  | Exc e, _ => Exc e
  | _, Exc e => Exc e
  | _, Fin b =>
      if Req_EM_T b 0 then
        match m with
        | PyFloat => Exc ZeroDivisionError
        | NumPy => match x with
                   | Fin a => if Req_EM_T a 0 then NaN else Inf
                   | Inf => Inf
                   | z => z
                   end
        end
      else match x with
           | Fin a => Fin (a / b)
           | z => z
           end
  | NaN, _ | _, NaN => NaN
  | Und, _ | _, Und => Und
  | Fin _, Inf => Fin 0
  | Inf, Inf => NaN
  end.

(** [x ** n] for a literal non-negative integer exponent. *)
Definition fpown (x : fl) (n : nat) : fl :=
  match x with
  | Fin a => Fin (a ^ n)
  | Inf => match n with O => Fin 1 | S _ => Inf end
  | NaN => match n with O => Fin 1 | S _ => NaN end
  | Und => match n with O => Fin 1 | S _ => Und end
  | Exc e => Exc e
  end.

(** [x ** y] with a real (non-literal or fractional) exponent.
    Negative base: a finite value when the exponent is integral; otherwise NumPy gives nan and
    Python floats a complex number (which the model leaves undefined). *)
Definition fpow (m : mode) (x y : fl) : fl :=
  match x, y with
  | Exc e, _ => Exc e
  | _, Exc e => Exc e
  | Fin a, Fin b =>
      if Rlt_dec 0 a then Fin (Rpower a b)
      else if Req_EM_T a 0 then
        if Req_EM_T b 0 then Fin 1
        else if Rlt_dec 0 b then Fin 0
        else match m with PyFloat => Exc ZeroDivisionError | NumPy => Inf end
      else if Req_EM_T b (IZR (Int_part b)) then Fin (powerRZ a (Int_part b))
      else match m with PyFloat => Und | NumPy => NaN end
  | NaN, Fin b => if Req_EM_T b 0 then Fin 1 else NaN
  | NaN, NaN => NaN
  | Fin a, NaN => if Req_EM_T a 1 then Fin 1 else NaN
  | _, _ => Und
  end.

(** NumPy ufuncs (NumPy semantics whatever the operand). *)
Definition fsqrt (x : fl) : fl :=
  match x with
  | Fin a => if Rle_dec 0 a then Fin (sqrt a) else NaN
  | Inf => Und
  | y => y
  end.
Definition fexp (x : fl) : fl :=
  match x with Fin a => Fin (exp a) | Inf => Und | y => y end.
Definition flog (x : fl) : fl :=
  match x with
  | Fin a => if Rlt_dec 0 a then Fin (ln a)
             else if Req_EM_T a 0 then Inf else NaN
  | Inf => Und
  | y => y
  end.
Definition fsin (x : fl) : fl :=
  match x with Fin a => Fin (sin a) | Inf => NaN | y => y end.
Definition fcos (x : fl) : fl :=
  match x with Fin a => Fin (cos a) | Inf => NaN | y => y end.
Definition ftan (x : fl) : fl :=
  match x with
  | Fin a => if Req_EM_T (cos a) 0 then Und else Fin (tan a)
  | Inf => NaN | y => y end.
Definition farcsin (x : fl) : fl :=
  match x with
  | Fin a => if Rle_dec (-1) a then if Rle_dec a 1 then Fin (asin a) else NaN else NaN
  | Inf => NaN | y => y end.
Definition farccos (x : fl) : fl :=
  match x with
  | Fin a => if Rle_dec (-1) a then if Rle_dec a 1 then Fin (acos a) else NaN else NaN
  | Inf => NaN | y => y end.
Definition farctan (x : fl) : fl :=
  match x with Fin a => Fin (atan a) | Inf => Und | y => y end.
Definition fcosh (x : fl) : fl :=
  match x with Fin a => Fin (cosh a) | Inf => Und | y => y end.
(** [np.deg2rad] = [np.radians]. *)
Definition fdeg2rad (x : fl) : fl :=
  match x with Fin a => Fin (a * PI / 180) | y => y end.

(** [np.maximum]: propagates nan. *)
Definition fmaximum (x y : fl) : fl :=
  match x, y with
  | Exc e, _ => Exc e
  | _, Exc e => Exc e
  | NaN, _ | _, NaN => NaN
  | Fin a, Fin b => Fin (Rmax a b)
  | _, _ => Und
  end.

(** Comparisons, as used in boolean masks and [if]s. [None]: not determined by the model. *)
Definition fcmp (p : R -> R -> bool) (x y : fl) : option bool :=
  match x, y with
  | Fin a, Fin b => Some (p a b)
  | NaN, (Fin _ | Inf | NaN | Und) => Some false
  | (Fin _ | Inf | Und), NaN => Some false
  | _, _ => None
  end.
Definition Rltb (a b : R) : bool := if Rlt_dec a b then true else false.
Definition Rleb (a b : R) : bool := if Rle_dec a b then true else false.
Definition Reqb (a b : R) : bool := if Req_EM_T a b then true else false.
Definition fltb := fcmp Rltb.
Definition fleb := fcmp Rleb.
Definition feqb := fcmp Reqb.

Declare Scope fl_scope.
Delimit Scope fl_scope with fl.
Bind Scope fl_scope with fl.
Notation "# r" := (Fin r%R) (at level 1, r at level 0, format "# r") : fl_scope.
Infix "+" := fadd : fl_scope.
Infix "-" := fsub : fl_scope.
Infix "*" := fmul : fl_scope.
Notation "- x" := (fneg x) : fl_scope.
Notation "x ^^ n" := (fpown x n%nat) (at level 30, no associativity) : fl_scope.
(** Division one operand of which is a NumPy value whatever the mode. *)
Infix "/n" := (fdiv NumPy) (at level 40, left associativity) : fl_scope.

Notation "'let!' x := e 'in' k" := (bind e (fun x => k))
  (at level 200, x name, e at level 100, k at level 200, right associativity).
Notation "'call!' p := e 'in' k" := (call e (fun p => k))
  (at level 200, p pattern, e at level 100, k at level 200, right associativity).

(** ** Evaluation lemmas *)
Section Eval.
Implicit Types a b : R.

Lemma bind_fin B r (k : fl -> outcome B) : bind (Fin r) k = k (Fin r).
Proof. reflexivity. Qed.
Lemma bind_inf B (k : fl -> outcome B) : bind Inf k = k Inf.
Proof. reflexivity. Qed.
Lemma bind_nan B (k : fl -> outcome B) : bind NaN k = k NaN.
Proof. reflexivity. Qed.
Lemma call_ret A B (a : A) (k : A -> outcome B) : call (Ret a) k = k a.
Proof. reflexivity. Qed.
Lemma fneg_fin a : fneg (Fin a) = Fin (- a).
Proof. reflexivity. Qed.
Lemma fadd_fin a b : fadd (Fin a) (Fin b) = Fin (a + b).
Proof. reflexivity. Qed.
Lemma fsub_fin a b : fsub (Fin a) (Fin b) = Fin (a - b).
Proof. reflexivity. Qed.
Lemma fmul_fin a b : fmul (Fin a) (Fin b) = Fin (a * b).
Proof. reflexivity. Qed.
Lemma fpown_fin a n : fpown (Fin a) n = Fin (a ^ n).
Proof. reflexivity. Qed.
Lemma fdiv_fin m a b : b <> 0 -> fdiv m (Fin a) (Fin b) = Fin (a / b).
Proof. intros H; simpl; destruct (Req_EM_T b 0); [contradiction | reflexivity]. Qed.
Lemma fdiv_zero_py x : (forall e, x <> Exc e) -> fdiv PyFloat x (Fin 0) = Exc ZeroDivisionError.
Proof.
  intros H; destruct x; simpl; destruct (Req_EM_T 0 0); try congruence; try lra;
  try (exfalso; eapply H; reflexivity).
Qed.
Lemma fdiv_zero_py_fin a : fdiv PyFloat (Fin a) (Fin 0) = Exc ZeroDivisionError.
Proof. apply fdiv_zero_py; congruence. Qed.
Lemma fdiv_zero_np a : a <> 0 -> fdiv NumPy (Fin a) (Fin 0) = Inf.
Proof.
  intros H; simpl; destruct (Req_EM_T 0 0); try congruence.
  destruct (Req_EM_T a 0); congruence.
Qed.
Lemma fdiv_zero_zero_np : fdiv NumPy (Fin 0) (Fin 0) = NaN.
Proof. simpl; destruct (Req_EM_T 0 0); congruence. Qed.
Lemma fdiv_inf m a : fdiv m (Fin a) Inf = Fin 0.
Proof. reflexivity. Qed.
Lemma fmul_inf_r a : a <> 0 -> fmul (Fin a) Inf = Inf.
Proof. intros H; simpl; destruct (Req_EM_T a 0); congruence. Qed.
Lemma fmul_inf_l a : a <> 0 -> fmul Inf (Fin a) = Inf.
Proof. intros H; simpl; destruct (Req_EM_T a 0); congruence. Qed.
Lemma fsqrt_fin a : 0 <= a -> fsqrt (Fin a) = Fin (sqrt a).
Proof. intros H; simpl; destruct (Rle_dec 0 a); [reflexivity | contradiction]. Qed.
Lemma fsqrt_neg a : a < 0 -> fsqrt (Fin a) = NaN.
Proof. intros H; simpl; destruct (Rle_dec 0 a); [lra | reflexivity]. Qed.
Lemma fpow_fin m a b : 0 < a -> fpow m (Fin a) (Fin b) = Fin (Rpower a b).
Proof. intros H; simpl; destruct (Rlt_dec 0 a); [reflexivity | contradiction]. Qed.
Lemma fpow_zero m b : 0 < b -> fpow m (Fin 0) (Fin b) = Fin 0.
Proof.
  intros H; simpl; destruct (Rlt_dec 0 0); [lra|].
  destruct (Req_EM_T 0 0); [|congruence].
  destruct (Req_EM_T b 0); [lra|].
  destruct (Rlt_dec 0 b); [reflexivity|contradiction].
Qed.
Lemma fpow_neg_np a b : a < 0 -> (forall z, b <> IZR z) -> fpow NumPy (Fin a) (Fin b) = NaN.
Proof.
  intros H Hb; simpl; destruct (Rlt_dec 0 a); [lra|].
  destruct (Req_EM_T a 0); [lra|].
  destruct (Req_EM_T b (IZR (Int_part b))) as [E|]; [destruct (Hb _ E)|reflexivity].
Qed.
Lemma Int_part_IZR z : Int_part (IZR z) = z.
Proof.
  unfold Int_part. assert (H : (z + 1)%Z = up (IZR z)); [|rewrite <- H; ring].
  apply tech_up; rewrite plus_IZR; lra.
Qed.
Lemma fpow_neg_int m a z : a < 0 -> fpow m (Fin a) (Fin (IZR z)) = Fin (powerRZ a z).
Proof.
  intros H; simpl; destruct (Rlt_dec 0 a); [lra|].
  destruct (Req_EM_T a 0); [lra|]. rewrite Int_part_IZR.
  destruct (Req_EM_T (IZR z) (IZR z)); [reflexivity|congruence].
Qed.
Lemma fexp_fin a : fexp (Fin a) = Fin (exp a).
Proof. reflexivity. Qed.
Lemma flog_fin a : 0 < a -> flog (Fin a) = Fin (ln a).
Proof. intros H; simpl; destruct (Rlt_dec 0 a); [reflexivity | contradiction]. Qed.
Lemma fsin_fin a : fsin (Fin a) = Fin (sin a).
Proof. reflexivity. Qed.
Lemma fcos_fin a : fcos (Fin a) = Fin (cos a).
Proof. reflexivity. Qed.
Lemma ftan_fin a : cos a <> 0 -> ftan (Fin a) = Fin (tan a).
Proof. intros H; simpl; destruct (Req_EM_T (cos a) 0); [contradiction | reflexivity]. Qed.
Lemma farcsin_fin a : -1 <= a <= 1 -> farcsin (Fin a) = Fin (asin a).
Proof.
  intros [H1 H2]; simpl; destruct (Rle_dec (-1) a); [|lra].
  destruct (Rle_dec a 1); [reflexivity|lra].
Qed.
Lemma farccos_fin a : -1 <= a <= 1 -> farccos (Fin a) = Fin (acos a).
Proof.
  intros [H1 H2]; simpl; destruct (Rle_dec (-1) a); [|lra].
  destruct (Rle_dec a 1); [reflexivity|lra].
Qed.
Lemma farctan_fin a : farctan (Fin a) = Fin (atan a).
Proof. reflexivity. Qed.
Lemma fcosh_fin a : fcosh (Fin a) = Fin (cosh a).
Proof. reflexivity. Qed.
Lemma fdeg2rad_fin a : fdeg2rad (Fin a) = Fin (a * PI / 180).
Proof. reflexivity. Qed.
Lemma fmaximum_fin a b : fmaximum (Fin a) (Fin b) = Fin (Rmax a b).
Proof. reflexivity. Qed.
Lemma fltb_fin a b : fltb (Fin a) (Fin b) = Some (Rltb a b).
Proof. reflexivity. Qed.
Lemma fleb_fin a b : fleb (Fin a) (Fin b) = Some (Rleb a b).
Proof. reflexivity. Qed.
Lemma Rltb_true a b : a < b -> Rltb a b = true.
Proof. intros H; unfold Rltb; destruct (Rlt_dec a b); [reflexivity|contradiction]. Qed.
Lemma Rltb_false a b : b <= a -> Rltb a b = false.
Proof. intros H; unfold Rltb; destruct (Rlt_dec a b); [lra|reflexivity]. Qed.
Lemma Rleb_true a b : a <= b -> Rleb a b = true.
Proof. intros H; unfold Rleb; destruct (Rle_dec a b); [reflexivity|contradiction]. Qed.
Lemma Rleb_false a b : b < a -> Rleb a b = false.
Proof. intros H; unfold Rleb; destruct (Rle_dec a b); [lra|reflexivity]. Qed.
Lemma Rltb_iff a b : Rltb a b = true <-> a < b.
Proof. unfold Rltb; destruct (Rlt_dec a b); split; intros; try lra; congruence. Qed.
Lemma Rleb_iff a b : Rleb a b = true <-> a <= b.
Proof. unfold Rleb; destruct (Rle_dec a b); split; intros; try lra; congruence. Qed.
Lemma Reqb_true a b : a = b -> Reqb a b = true.
Proof. intros H; unfold Reqb; destruct (Req_EM_T a b); [reflexivity|contradiction]. Qed.
Lemma Reqb_false a b : a <> b -> Reqb a b = false.
Proof. intros H; unfold Reqb; destruct (Req_EM_T a b); [contradiction|reflexivity]. Qed.
Lemma Reqb_iff a b : Reqb a b = true <-> a = b.
Proof. unfold Reqb; destruct (Req_EM_T a b); split; intros; try lra; congruence. Qed.
End Eval.

Lemma fin_inj a b : Fin a = Fin b -> a = b.
Proof. congruence. Qed.
Lemma fin_eq a b : a = b -> Fin a = Fin b.
Proof. congruence. Qed.

(** Turn decimal literals ([Q2R (n # d)]) into [IZR] fractions. *)
Ltac dec :=
  unfold Q2R in *; cbn [QArith_base.Qnum QArith_base.Qden] in *;
  repeat match goal with
  | |- context [IZR (Z.pow_pos ?a ?b)] =>
      let v := eval vm_compute in (Z.pow_pos a b) in change (Z.pow_pos a b) with v
  | H : context [IZR (Z.pow_pos ?a ?b)] |- _ =>
      let v := eval vm_compute in (Z.pow_pos a b) in change (Z.pow_pos a b) with v in H
  end.

(** Side-condition solver for [0 < _], [0 <= _] and [_ <> 0] goals. *)
Ltac pos :=
  first [ assumption
        | lra
        | lazymatch goal with
          | |- 0 < PI => apply PI_RGT_0
          | |- 0 < _ * _ => apply Rmult_lt_0_compat; pos
          | |- 0 < _ / _ => apply Rdiv_lt_0_compat; pos
          | |- 0 < / _ => apply Rinv_0_lt_compat; pos
          | |- 0 < _ ^ _ => apply pow_lt; pos
          | |- 0 < sqrt _ => apply sqrt_lt_R0; pos
          | |- 0 < exp _ => apply exp_pos
          | |- 0 < Rpower _ _ => apply exp_pos
          | |- 0 < _ + _ => first [ apply Rplus_lt_0_compat; pos
                                  | apply Rplus_lt_le_0_compat; pos
                                  | apply Rplus_le_lt_0_compat; pos ]
          | |- 0 <= PI => left; apply PI_RGT_0
          | |- 0 <= _ ^ 2 => apply pow2_ge_0
          | |- 0 <= _ ^ _ => apply pow_le; pos
          | |- 0 <= _ * _ => apply Rmult_le_pos; pos
          | |- 0 <= _ / _ => unfold Rdiv; apply Rmult_le_pos; pos
          | |- 0 <= / _ => left; apply Rinv_0_lt_compat; pos
          | |- 0 <= sqrt _ => apply sqrt_pos
          | |- 0 <= exp _ => left; apply exp_pos
          | |- 0 <= Rpower _ _ => left; apply exp_pos
          | |- 0 <= _ + _ => apply Rplus_le_le_0_compat; pos
          | |- _ <> 0 => apply Rgt_not_eq; unfold Rgt; pos
          | |- _ /\ _ => split; pos
          end
        | nra ].
Ltac nz1 :=
  first [ assumption
        | lra
        | solve [pos]
        | apply Rlt_not_eq; first [ assumption | lra | nra ]
        | nra ].
Ltac nz := solve [ nz1 | repeat split; nz1 ].

(** One evaluation step. *)
Ltac fl1 :=
  first [ rewrite bind_fin | rewrite call_ret
        | rewrite fadd_fin | rewrite fsub_fin | rewrite fmul_fin | rewrite fneg_fin
        | rewrite fpown_fin | rewrite fexp_fin | rewrite fsin_fin | rewrite fcos_fin
        | rewrite farctan_fin | rewrite fcosh_fin | rewrite fdeg2rad_fin
        | rewrite fmaximum_fin ].
Ltac flc :=
  first [ rewrite fdiv_fin by nz | rewrite fsqrt_fin by nz
        | rewrite fpow_fin by nz | rewrite flog_fin by nz
        | rewrite ftan_fin by nz | rewrite farcsin_fin by nz | rewrite farccos_fin by nz ].
Ltac fls := repeat (first [ fl1 | flc ]; cbv beta).

(** Reduce an equation between results to equations between reals. *)
Ltac reteq :=
  repeat match goal with
  | |- Ret _ = Ret _ => apply f_equal
  | |- (_, _) = (_, _) => apply f_equal2
  | |- _ :: _ = _ :: _ => apply f_equal2
  | |- Fin _ = Fin _ => apply fin_eq
  end; try reflexivity.
