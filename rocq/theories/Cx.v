(** * Cx: complex numbers, for the parts of the code that use Python/NumPy complex values.

    As in [Fl.v] arithmetic is exact. [CUnd] means "no claim": division by zero, a value with a
    non-finite part, or the square root of a negative real (whose sign NumPy takes from the sign
    of a zero imaginary part, which exact reals do not have). *)
From Verif Require Import Fl.
Open Scope R_scope.

Inductive cx := CFin (re im : R) | CUnd.

(** A real value used where a complex one is expected. *)
Definition cof (x : fl) : cx := match x with Fin a => CFin a 0 | _ => CUnd end.
Definition clift2 (f : R -> R -> R -> R -> cx) (x y : cx) : cx :=
  match x, y with CFin a b, CFin c d => f a b c d | _, _ => CUnd end.
Definition cadd := clift2 (fun a b c d => CFin (a + c) (b + d)).
Definition csub := clift2 (fun a b c d => CFin (a - c) (b - d)).
Definition cmul := clift2 (fun a b c d => CFin (a * c - b * d) (a * d + b * c)).
Definition cdiv := clift2 (fun a b c d =>
  if Req_EM_T (c^2 + d^2) 0 then CUnd
  else CFin ((a * c + b * d) / (c^2 + d^2)) ((b * c - a * d) / (c^2 + d^2))).
Definition cneg (x : cx) : cx := match x with CFin a b => CFin (- a) (- b) | CUnd => CUnd end.
Definition cexp (x : cx) : cx :=
  match x with CFin a b => CFin (exp a * cos b) (exp a * sin b) | CUnd => CUnd end.
(** Principal square root ([np.sqrt], [** (1/2)]). *)
Definition csqrt (x : cx) : cx :=
  match x with
  | CFin a b =>
      if Req_EM_T b 0 then if Rle_dec 0 a then CFin (sqrt a) 0 else CUnd
      else let r := sqrt (a^2 + b^2) in
           CFin (sqrt ((r + a) / 2)) (if Rlt_dec 0 b then sqrt ((r - a) / 2) else - sqrt ((r - a) / 2))
  | CUnd => CUnd
  end.
(** [.real], [.imag], [np.abs]. *)
Definition creal (x : cx) : fl := match x with CFin a _ => Fin a | CUnd => Und end.
Definition cimag (x : cx) : fl := match x with CFin _ b => Fin b | CUnd => Und end.
Definition cabs (x : cx) : fl := match x with CFin a b => Fin (sqrt (a^2 + b^2)) | CUnd => Und end.
(** The imaginary unit, Python [1j]. *)
Definition cI : cx := CFin 0 1.

Declare Scope cx_scope.
Delimit Scope cx_scope with cx.
Bind Scope cx_scope with cx.
Infix "+" := cadd : cx_scope.
Infix "-" := csub : cx_scope.
Infix "*" := cmul : cx_scope.
Infix "/" := cdiv : cx_scope.
Notation "- x" := (cneg x) : cx_scope.
Notation "'re' r" := (CFin r%R 0) (at level 9, r at level 0, only parsing) : cx_scope.

Lemma cadd_fin a b c d : cadd (CFin a b) (CFin c d) = CFin (a + c) (b + d).
Proof. reflexivity. Qed.
Lemma csub_fin a b c d : csub (CFin a b) (CFin c d) = CFin (a - c) (b - d).
Proof. reflexivity. Qed.
Lemma cmul_fin a b c d : cmul (CFin a b) (CFin c d) = CFin (a * c - b * d) (a * d + b * c).
Proof. reflexivity. Qed.
Lemma cdiv_fin a b c d : c^2 + d^2 <> 0 ->
  cdiv (CFin a b) (CFin c d) = CFin ((a * c + b * d) / (c^2 + d^2)) ((b * c - a * d) / (c^2 + d^2)).
Proof. intros H. unfold cdiv, clift2. destruct (Req_EM_T (c^2 + d^2) 0); [contradiction|reflexivity]. Qed.
Lemma cfin_eq a b c d : a = c -> b = d -> CFin a b = CFin c d.
Proof. congruence. Qed.
Lemma sumsq_0 a b : a^2 + b^2 = 0 -> a = 0 /\ b = 0.
Proof. intros H. assert (0 <= a^2) by apply pow2_ge_0. assert (0 <= b^2) by apply pow2_ge_0. split; nra. Qed.
Lemma sumsq_nz a b : a <> 0 \/ b <> 0 -> a^2 + b^2 <> 0.
Proof. intros [H|H] E; apply sumsq_0 in E; tauto. Qed.
(** The square root, where defined, squares to its argument and has a non-negative real part. *)
Lemma csqrt_sq z c d : csqrt z = CFin c d -> cmul (CFin c d) (CFin c d) = z /\ 0 <= c.
Proof.
  destruct z as [a b|]; cbn [csqrt]; [|discriminate].
  destruct (Req_EM_T b 0) as [->|Hb].
  - destruct (Rle_dec 0 a); [|discriminate]. intros E. injection E as <- <-.
    split; [|apply sqrt_pos]. rewrite cmul_fin. apply cfin_eq; [|ring].
    transitivity (sqrt a * sqrt a); [ring|]. apply sqrt_sqrt. assumption.
  - set (r := sqrt (a^2 + b^2)).
    assert (R2 : r^2 = a^2 + b^2).
    { unfold r. apply pow2_sqrt. assert (0 <= a^2) by apply pow2_ge_0. assert (0 <= b^2) by apply pow2_ge_0. lra. }
    assert (R0 : 0 <= r) by apply sqrt_pos.
    assert (RA : - r <= a <= r).
    { assert (0 <= b^2) by apply pow2_ge_0. split.
      - apply Ropp_le_cancel. rewrite Ropp_involutive. apply Rsqr_incr_0_var; [unfold Rsqr; nra|assumption].
      - apply Rsqr_incr_0_var; [unfold Rsqr; nra|assumption]. }
    intros E. injection E as <- E2. split; [|apply sqrt_pos].
    set (x := sqrt ((r + a) / 2)) in *. set (y := sqrt ((r - a) / 2)) in *.
    assert (X2 : x * x = (r + a) / 2) by (apply sqrt_sqrt; lra).
    assert (Y2 : y * y = (r - a) / 2) by (apply sqrt_sqrt; lra).
    assert (XY : (x * y) ^ 2 = (b / 2)^2).
    { transitivity ((x * x) * (y * y)); [ring|]. rewrite X2, Y2. nra. }
    assert (P : 0 <= x * y) by (apply Rmult_le_pos; apply sqrt_pos).
    rewrite cmul_fin. rewrite <- E2. destruct (Rlt_dec 0 b); apply cfin_eq.
    + lra.
    + assert (x * y = b / 2); [|lra]. apply Rsqr_inj; [assumption|lra|unfold Rsqr; nra].
    + nra.
    + assert (x * y = - b / 2); [|lra]. apply Rsqr_inj; [assumption|lra|unfold Rsqr; nra].
Qed.
Lemma csqrt_real a : 0 <= a -> csqrt (CFin a 0) = CFin (sqrt a) 0.
Proof.
  intros H. cbn [csqrt]. destruct (Req_EM_T 0 0); [|congruence]. destruct (Rle_dec 0 a); [reflexivity|contradiction].
Qed.
