(** * L_ContProg: continuity of straight-line programs, and numbers nearby. *)
From Verif Require Import Fl RealLemmas M_Array Spec16 Spec21 L_Cont.
Open Scope R_scope.

(** ** Programs without a power that may be 0 ** 0 *)
Fixpoint closed (e : expr) : bool := match e with EVar _ => false | ELit _ => true | EOp1 _ e => closed e | EOp2 _ a b => closed a && closed b end.
Definition is_pow (o : op2) : bool := match o with OPow | OPowN => true | _ => false end.
Fixpoint reg (m : mode) (env : list fl) (e : expr) : Prop :=
  match e with
  | EVar _ | ELit _ => True
  | EOp1 _ e => reg m env e
  | EOp2 o a b => reg m env a /\ reg m env b /\ (is_pow o = true ->
      (exists r, closed b = true /\ ev m [] b = Fin r /\ r <> 0) \/
      (exists r, closed a = true /\ ev m [] a = Fin r /\ r <> 0 /\ r <> 1) \/
      (exists u v, ev m env a = Fin u /\ ev m env b = Fin v /\ (u <> 0 \/ v <> 0)))
  end.
(** A test compares arguments (the first [k] variables) or fixed numbers. Where they are equal the branches have to agree. *)
Definition plain (k : nat) (e : expr) : bool := match e with EVar n => Nat.ltb n k | ELit _ => true | _ => false end.
Fixpoint regs (m : mode) (k : nat) (env : list fl) (p : prog) : Prop :=
  match p with
  | PRet es => forall e, In e es -> reg m env e
  | PLet e p => reg m env e /\ regs m k (env ++ [ev m env e]) p
  | PIf c e1 e2 p q => plain k e1 = true /\ plain k e2 = true /\ exists a b, ev m env e1 = Fin a /\ ev m env e2 = Fin b /\
      (a <> b -> semc c (Fin a) (Fin b) = Some true /\ regs m k env p \/ semc c (Fin a) (Fin b) = Some false /\ regs m k env q) /\
      (a = b -> regs m k env p /\ regs m k env q /\ run m p env = run m q env)
  end.
(** Powers with a fixed nonzero exponent only. *)
Fixpoint tame (m : mode) (e : expr) : Prop :=
  match e with
  | EVar _ | ELit _ => True
  | EOp1 _ e => tame m e
  | EOp2 o a b => tame m a /\ tame m b /\ if is_pow o
      then (exists r, closed b = true /\ ev m [] b = Fin r /\ r <> 0) \/ (exists r, closed a = true /\ ev m [] a = Fin r /\ r <> 0 /\ r <> 1) else True
  end.
Fixpoint tames (m : mode) (p : prog) : Prop :=
  match p with PRet es => fold_right (fun e q => tame m e /\ q) True es | PLet e p => tame m e /\ tames m p | PIf _ _ _ _ _ => False end.
Lemma tame_reg m env e : tame m e -> reg m env e.
Proof. induction e; cbn; auto. intros (A & B & C). repeat split; auto. intros E. rewrite E in C. tauto. Qed.
Lemma tames_regs m k p : forall env, tames m p -> regs m k env p.
Proof.
  induction p; cbn; intros env; try tauto.
  - intros H e He. apply tame_reg. induction es; cbn in *; [contradiction|]. destruct He as [->|He]; tauto.
  - intros (A & B). split; [apply tame_reg, A|auto].
Qed.
Lemma closed_ev m env e : closed e = true -> ev m env e = ev m [] e.
Proof. induction e; cbn; try discriminate; auto; [intros; rewrite IHe; auto|]. intros H. apply andb_true_iff in H as [? ?]. rewrite IHe1, IHe2; auto. Qed.

Section Lim.
Variables (T : Type) (F : (T -> Prop) -> Prop).
Hypotheses (F_true : F (fun _ => True)) (F_and : forall P Q : T -> Prop, F P -> F Q -> F (fun t => P t /\ Q t))
  (F_imp : forall P Q : T -> Prop, (forall t, P t -> Q t) -> F P -> F Q).
Notation tends := (tends T F).
Notation ok := (ok T F).
Definition etends (env : T -> list fl) (env0 : list fl) : Prop := forall n, tends (fun t => nth n (env t) Und) (nth n env0 Und).
Lemma tends_sem1 o f x : tends f x -> tends (fun t => sem1 o (f t)) (sem1 o x).
Proof.
  destruct o; cbn [sem1]; intros H.
  - apply tends_neg; auto.
  - apply tends_sqrt; auto.
  - apply tends_exp; auto.
  - apply tends_log; auto.
  - apply tends_sin; auto.
  - apply tends_cos; auto.
  - apply tends_tan; auto.
  - apply tends_arcsin; auto.
  - apply tends_arccos; auto.
  - apply tends_arctan; auto.
  - apply tends_cosh; auto.
  - apply tends_deg2rad; auto.
  - apply tends_pown; auto.
Qed.
Lemma tends_sem2 m o f h x y : is_pow o = false -> tends f x -> tends h y -> tends (fun t => sem2 m o (f t) (h t)) (sem2 m o x y).
Proof.
  destruct o; cbn [sem2 is_pow]; intros E Hf Hh; try discriminate.
  - apply tends_add; auto.
  - apply tends_sub; auto.
  - apply tends_mul; auto.
  - apply tends_div; auto.
  - apply tends_div; auto.
  - apply tends_max; auto.
Qed.
Lemma tends_ev m env env0 e : etends env env0 -> reg m env0 e -> tends (fun t => ev m (env t) e) (ev m env0 e).
Proof.
  intros H. induction e; cbn [ev reg].
  - intros _. apply H.
  - intros _. apply tends_const; auto.
  - intros R0. apply tends_sem1, IHe, R0.
  - intros (A & B & C). destruct (is_pow o) eqn:E; [|apply tends_sem2; auto].
    assert (P : exists m', sem2 m o = fpow m') by (destruct o; try discriminate; cbn; eauto). destruct P as (m' & ->).
    destruct (C eq_refl) as [(r & K & Er & N)|[(r & K & Er & N)|(u & v & Eu & Ev & N)]].
    + rewrite (closed_ev m env0 e2 K), Er. apply tends_ext with (f := fun t => fpow m' (ev m (env t) e1) (Fin r)); auto.
      * intros t. left. rewrite (closed_ev m (env t) e2 K), Er. reflexivity.
      * apply tends_pow_const; auto.
    + rewrite (closed_ev m env0 e1 K), Er. apply tends_ext with (f := fun t => fpow m' (Fin r) (ev m (env t) e2)); auto.
      * intros t. left. rewrite (closed_ev m (env t) e1 K), Er. reflexivity.
      * assert (Y := IHe2 B). destruct (ev m env0 e2); try (apply tends_bad; cbn; try destruct (Req_EM_T r 1); try exact I; tauto).
        apply tends_pow; auto; [tauto|]. apply tends_const; auto.
    + assert (X := IHe1 A). assert (Y := IHe2 B). rewrite Eu in *. rewrite Ev in *. apply tends_pow; auto.
Qed.
(** ** Programs *)
Definition outn (i : nat) (o : outcome (list fl)) : fl := match o with Ret l => nth i l Und | _ => Und end.
Lemma nth_app_one (l : list fl) x n : nth n (l ++ [x]) Und = if Nat.ltb n (length l) then nth n l Und else if Nat.eqb n (length l) then x else Und.
Proof.
  destruct (Nat.ltb_spec n (length l)); [apply app_nth1; auto|]. rewrite app_nth2 by lia. destruct (Nat.eqb_spec n (length l)); [subst; rewrite Nat.sub_diag; reflexivity|].
  apply nth_overflow. cbn. lia.
Qed.
Lemma etends_snoc env env0 f x : (forall t, length (env t) = length env0) -> etends env env0 -> tends f x -> etends (fun t => env t ++ [f t]) (env0 ++ [x]).
Proof.
  intros L H Hx n. rewrite nth_app_one. apply tends_ext with (f := fun t => if Nat.ltb n (length env0) then nth n (env t) Und else if Nat.eqb n (length env0) then f t else Und); auto.
  - intros t. left. rewrite nth_app_one, L. reflexivity.
  - destruct (Nat.ltb n (length env0)); [apply H|]. destruct (Nat.eqb n (length env0)); [exact Hx|exact I].
Qed.

Lemma rets_cases xs : rets xs = Ret xs \/ exists e, rets xs = Raise e.
Proof. induction xs as [|x xs [IH|(e & IH)]]; [left; reflexivity|..]; destruct x; cbn [rets bind]; rewrite ?IH; cbn; eauto. Qed.
Lemma outn_rets xs i : nth i xs Und = outn i (rets xs) \/ bad (outn i (rets xs)).
Proof. destruct (rets_cases xs) as [->|(e & ->)]; cbn; auto. Qed.
Lemma tends_mix (f g h : T -> fl) x : F (fun t => h t = f t \/ h t = g t \/ bad (h t)) -> tends f x -> tends g x -> tends h x.
Proof.
  intros M. destruct x; cbn; auto; intros A B eps He; apply F_imp with (2 := F_and _ _ M (F_and _ _ (A eps He) (B eps He)));
  intros t [[E|[E|E]] [U V]]; unfold near_fin, near_inf in *; try rewrite E; auto.
Qed.
Lemma semc_stable c a b u v : a <> b -> Rabs (u - a) < Rabs (a - b) / 2 -> Rabs (v - b) < Rabs (a - b) / 2 -> semc c (Fin u) (Fin v) = semc c (Fin a) (Fin b).
Proof.
  intros N U V. apply Rabs_def2 in U, V. destruct c; cbn; unfold Rltb, Rleb, Reqb; f_equal;
  destruct (Rle_lt_dec a b); [rewrite Rabs_left1 in * by lra|rewrite Rabs_right in * by lra|rewrite Rabs_left1 in * by lra|rewrite Rabs_right in * by lra|rewrite Rabs_left1 in * by lra|rewrite Rabs_right in * by lra];
  repeat match goal with |- context [if ?d then _ else _] => destruct d end; auto; exfalso; lra.
Qed.
Definition args_ok (k : nat) (env : T -> list fl) : Prop := forall n, (n < k)%nat -> ok (fun t => nth n (env t) Und).
Lemma ok_plain m k env e : args_ok k env -> plain k e = true -> ok (fun t => ev m (env t) e).
Proof. intros H. destruct e; try discriminate; cbn; [intros L; apply Nat.ltb_lt in L; auto|]. intros _. apply ok_const; auto. Qed.
Lemma reg_plain m k env e : plain k e = true -> reg m env e.
Proof. destruct e; try discriminate; cbn; auto. Qed.
Lemma tends_run m k p : forall env env0 ys, (k <= length env0)%nat -> (forall t, length (env t) = length env0) -> args_ok k env -> etends env env0 ->
  regs m k env0 p -> run m p env0 = Ret ys -> forall i, tends (fun t => outn i (run m p (env t))) (nth i ys Und).
Proof.
  induction p as [es|e p IH|c e1 e2 p IHp q IHq]; intros env env0 ys Lk L A H R0 E i; cbn [run regs] in *; [|destruct R0 as [R1 R2]|].
  - destruct (rets_cases (map (ev m env0) es)) as [K|(e & K)]; rewrite K in E; [|discriminate]. injection E as <-.
    apply tends_ext with (f := fun t => nth i (map (ev m (env t)) es) Und); auto; [intros t; apply outn_rets|].
    destruct (nth_error es i) as [e|] eqn:Ei.
    + apply tends_ext with (f := fun t => ev m (env t) e); auto.
      * intros t. left. symmetry. apply nth_error_nth, map_nth_error, Ei.
      * rewrite (nth_error_nth (map (ev m env0) es) i Und (map_nth_error _ _ _ Ei)). apply tends_ev; auto. apply R0. eapply nth_error_In; eauto.
    + apply nth_error_None in Ei. rewrite (nth_overflow (map (ev m env0) es)) by (rewrite map_length; auto). exact I.
  - assert (X := tends_ev m env env0 e H R1). assert (E' : run m p (env0 ++ [ev m env0 e]) = Ret ys) by (destruct (ev m env0 e); auto; discriminate E).
    apply tends_ext with (f := fun t => outn i (run m p (env t ++ [ev m (env t) e]))); auto.
    + intros t. destruct (ev m (env t) e); cbn [bind]; auto. right. exact I.
    + apply (IH (fun t => env t ++ [ev m (env t) e])) with (env0 ++ [ev m env0 e]); auto.
      * rewrite app_length. lia.
      * intros t; rewrite !app_length, L; reflexivity.
      * intros n Ln. apply F_imp with (2 := A n Ln). intros t. rewrite app_nth1 by (rewrite L; lia). auto.
      * apply etends_snoc; auto.
  - destruct R0 as (P1 & P2 & a & b & Ea & Eb & D & Q).
    assert (X1 := tends_ev m env env0 e1 H (reg_plain m k env0 e1 P1)). assert (X2 := tends_ev m env env0 e2 H (reg_plain m k env0 e2 P2)).
    assert (K1 := ok_plain m k env e1 A P1). assert (K2 := ok_plain m k env e2 A P2). rewrite Ea, Eb in *.
    destruct (Req_dec a b) as [Q'|N].
    + destruct (Q Q') as (Rp & Rq & Epq).
      assert (E' : run m p env0 = Ret ys). { destruct (semc c (Fin a) (Fin b)) as [[|]|]; [exact E|rewrite Epq; exact E|discriminate]. }
      apply tends_mix with (f := fun t => outn i (run m p (env t))) (g := fun t => outn i (run m q (env t))).
      * apply F_imp with (2 := F_true). intros t _. destruct (semc c (ev m (env t) e1) (ev m (env t) e2)) as [[|]|]; auto. right; right. exact I.
      * apply IHp with env0; auto.
      * apply IHq with env0; auto. congruence.
    + assert (Z : F (fun t => semc c (ev m (env t) e1) (ev m (env t) e2) = semc c (Fin a) (Fin b))).
      { assert (W : 0 < Rabs (a - b)) by (apply Rabs_pos_lt; lra).
        apply F_imp with (2 := F_and _ _ (ok_fin T F F_and F_imp _ _ (Rabs (a - b) / 2) ltac:(lra) X1 K1) (ok_fin T F F_and F_imp _ _ (Rabs (a - b) / 2) ltac:(lra) X2 K2)).
        intros t [(u & -> & U) (v & -> & V)]. apply semc_stable; auto. }
      destruct (D N) as [(S1 & Rp)|(S1 & Rq)]; rewrite S1 in *.
      * assert (Y : tends (fun t => outn i (run m p (env t))) (nth i ys Und)) by (apply IHp with env0; auto).
        refine (tends_mix _ _ _ _ _ Y Y). apply F_imp with (2 := Z). intros t ->. auto.
      * assert (Y : tends (fun t => outn i (run m q (env t))) (nth i ys Und)) by (apply IHq with env0; auto).
        refine (tends_mix _ _ _ _ _ Y Y). apply F_imp with (2 := Z). intros t ->. auto.
Qed.

(** ** Numbers nearby *)
(** Operations that give numbers near a place where they do: all but those that stop at an edge (sqrt, log, arcsin, arccos, power). *)
Definition open1 (o : op1) : bool := match o with OSqrt | OLog | OArcsin | OArccos => false | _ => true end.
Definition is_pow0 (o : op1) : bool := match o with OPown 0 => true | _ => false end.
Definition is_var (e : expr) : bool := match e with EVar _ => true | _ => false end.
Fixpoint opene (e : expr) : bool :=
  match e with EVar _ | ELit _ => true | EOp1 o e => open1 o && opene e && (negb (is_pow0 o) || is_var e) | EOp2 o a b => negb (is_pow o) && opene a && opene b end.
Lemma ok_sem1 o f x : open1 o = true -> ~ bad (sem1 o x) -> tends f x -> ok f -> ok (fun t => sem1 o (f t)).
Proof.
  intros O N Hf Kf. destruct o; try discriminate; cbn [sem1] in *.
  - apply ok_neg; auto.
  - destruct x as [a| | | |]; try (exfalso; apply N; exact I). apply (ok_op1 T F F_and F_imp fexp a f 1); [lra|cbn; auto|exact Hf|exact Kf].
  - destruct x as [a| | | |]; try (exfalso; apply N; exact I). apply (ok_op1 T F F_and F_imp fsin a f 1); [lra|cbn; auto|exact Hf|exact Kf].
  - destruct x as [a| | | |]; try (exfalso; apply N; exact I). apply (ok_op1 T F F_and F_imp fcos a f 1); [lra|cbn; auto|exact Hf|exact Kf].
  - eapply ok_tan; eauto.
  - destruct x as [a| | | |]; try (exfalso; apply N; exact I). apply (ok_op1 T F F_and F_imp farctan a f 1); [lra|cbn; auto|exact Hf|exact Kf].
  - destruct x as [a| | | |]; try (exfalso; apply N; exact I). apply (ok_op1 T F F_and F_imp fcosh a f 1); [lra|cbn; auto|exact Hf|exact Kf].
  - apply ok_deg2rad; auto.
  - destruct n as [|n]; [|apply ok_pown; auto]. apply F_imp with (2 := Kf). intros t. destruct (f t); cbn; auto.
Qed.
Lemma ok_sem2 m o f h x y : is_pow o = false -> ~ bad (sem2 m o x y) -> tends f x -> tends h y -> ok f -> ok h -> ok (fun t => sem2 m o (f t) (h t)).
Proof.
  intros O N Hf Hh Kf Kh. destruct o; try discriminate; cbn [sem2] in *.
  - eapply ok_add; eauto.
  - eapply ok_sub; eauto.
  - eapply ok_mul; eauto.
  - eapply ok_div; eauto.
  - eapply ok_div; eauto.
  - eapply ok_max; eauto.
Qed.
(** A bad operand makes the result bad. *)
Lemma bad_sem1 o x : open1 o = true -> is_pow0 o = false -> bad x -> bad (sem1 o x).
Proof. destruct o as [| | | | | | | | | | | |[|n]]; try discriminate; destruct x; cbn; tauto. Qed.
Lemma bad_sem2_l m o x y : is_pow o = false -> bad x -> bad (sem2 m o x y).
Proof. destruct o; try discriminate; intros _; cbn [sem2]; try apply bad_div; destruct x, y; cbn; tauto. Qed.
Lemma bad_sem2_r m o x y : is_pow o = false -> bad y -> bad (sem2 m o x y).
Proof. destruct o; try discriminate; intros _; cbn [sem2]; try apply bad_div2; destruct x, y; cbn; tauto. Qed.
Lemma opene_reg m env e : opene e = true -> reg m env e.
Proof. induction e; cbn; auto; [intros H; rewrite !andb_true_iff in H; tauto|]. intros H. apply andb_true_iff in H as [H ?]. apply andb_true_iff in H as [H ?]. repeat split; auto. destruct (is_pow o); discriminate. Qed.
(** What a variable of the expression is worth shows in the expression. *)
Fixpoint uses (n : nat) (e : expr) : bool := match e with EVar k => Nat.eqb n k | ELit _ => false | EOp1 o e => negb (is_pow0 o) && uses n e | EOp2 _ a b => uses n a || uses n b end.
Lemma bad_ev m env n e : opene e = true -> uses n e = true -> bad (nth n env Und) -> bad (ev m env e).
Proof.
  induction e; cbn; try discriminate.
  - intros _ E. apply Nat.eqb_eq in E as ->. auto.
  - intros O U B. apply andb_true_iff in O as [O ?]. apply andb_true_iff in O as [? ?]. apply andb_true_iff in U as [U ?]. apply negb_true_iff in U. apply bad_sem1; auto.
  - intros O U B. apply andb_true_iff in O as [O ?]. apply andb_true_iff in O as [O ?]. apply negb_true_iff in O. apply orb_true_iff in U as [U|U]; [apply bad_sem2_l|apply bad_sem2_r]; auto.
Qed.
Lemma ok_ev m env env0 e : (forall t, length (env t) = length env0) -> etends env env0 -> opene e = true ->
  (forall n, (n < length env0)%nat -> ok (fun t => nth n (env t) Und)) -> ~ bad (ev m env0 e) -> ok (fun t => ev m (env t) e).
Proof.
  intros L H. induction e; cbn [ev opene].
  - intros _ U N. destruct (Nat.lt_ge_cases n (length env0)) as [Ln|Ln]; [auto|]. exfalso. apply N. rewrite nth_overflow by exact Ln. exact I.
  - intros _ _ _. apply ok_const; auto.
  - intros O U B. apply andb_true_iff in O as [O O3]. apply andb_true_iff in O as [O1 O2]. destruct (is_pow0 o) eqn:Z; cbn in O3.
    + destruct o as [| | | | | | | | | | | |[|n]]; try discriminate. destruct e as [k| | |]; try discriminate. cbn [ev sem1] in *.
      destruct (Nat.lt_ge_cases k (length env0)) as [Ln|Ln].
      * apply F_imp with (2 := U k Ln). intros t. destruct (nth k (env t) Und); cbn; auto.
      * apply F_imp with (2 := F_true). intros t _. rewrite nth_overflow by (rewrite L; exact Ln). cbn. auto.
    + apply ok_sem1 with (ev m env0 e); auto; [apply tends_ev; auto; apply opene_reg; auto|]. apply IHe; auto. intros X. apply B, bad_sem1; auto.
  - intros O U B. apply andb_true_iff in O as [O ?]. apply andb_true_iff in O as [O ?]. apply negb_true_iff in O.
    apply ok_sem2 with (ev m env0 e1) (ev m env0 e2); auto; try (apply tends_ev; auto; apply opene_reg; auto).
    + apply IHe1; auto. intros X. apply B, bad_sem2_l; auto.
    + apply IHe2; auto. intros X. apply B, bad_sem2_r; auto.
Qed.
(** Every name is used, in the end, by a result. [k]: the number of variables so far. *)
Fixpoint usesp (n k : nat) (p : prog) : bool :=
  match p with
  | PRet es => existsb (uses n) es
  | PLet e p => (uses n e && usesp k (S k) p) || usesp n (S k) p
  | PIf _ _ _ _ _ => false
  end.
Fixpoint openp (k : nat) (p : prog) : bool :=
  match p with
  | PRet es => forallb opene es
  | PLet e p => opene e && usesp k (S k) p && openp (S k) p
  | PIf _ _ _ _ _ => false
  end.
Lemma bad_run m p : forall n env ys, openp (length env) p = true -> (n < length env)%nat -> usesp n (length env) p = true -> bad (nth n env Und) ->
  run m p env = Ret ys -> exists i, (i < length ys)%nat /\ bad (nth i ys Und).
Proof.
  induction p as [es|e p IH|c e1 e2 p IHp q IHq]; intros n env ys O Ln U B E; cbn [run openp usesp] in *; [| |discriminate].
  - destruct (rets_cases (map (ev m env) es)) as [K|(e & K)]; rewrite K in E; [|discriminate]. injection E as <-.
    apply existsb_exists in U as (e & He & U). destruct (In_nth_error es e He) as (i & Ei). exists i.
    split; [rewrite map_length; apply nth_error_Some; congruence|]. rewrite (nth_error_nth (map (ev m env) es) i Und (map_nth_error _ _ _ Ei)).
    apply bad_ev with n; auto. rewrite forallb_forall in O. auto.
  - apply andb_true_iff in O as [O O3]. apply andb_true_iff in O as [O1 O2].
    assert (E' : run m p (env ++ [ev m env e]) = Ret ys) by (destruct (ev m env e); auto; discriminate E).
    assert (Lk : length (env ++ [ev m env e]) = S (length env)) by (rewrite app_length; cbn; lia).
    apply orb_true_iff in U as [U|U].
    + apply andb_true_iff in U as [U1 U2]. apply (IH (length env) (env ++ [ev m env e]) ys); rewrite ?Lk; auto.
      rewrite app_nth2, Nat.sub_diag by lia. cbn. apply bad_ev with n; auto.
    + apply (IH n (env ++ [ev m env e]) ys); rewrite ?Lk; auto. rewrite app_nth1 by lia. exact B.
Qed.
Lemma F_all (A : Type) (l : list A) (P : A -> T -> Prop) : (forall a, In a l -> F (P a)) -> F (fun t => forall a, In a l -> P a t).
Proof.
  induction l as [|a l IH]; intros H; [apply F_imp with (2 := F_true); cbn; tauto|].
  apply F_imp with (2 := F_and _ _ (H a (or_introl eq_refl)) (IH (fun b Hb => H b (or_intror Hb)))). intros t [X Y] b [->|Hb]; auto.
Qed.
Lemma map_Fin_nth rs i : (i < length rs)%nat -> nth i (map Fin rs) Und = Fin (nth i rs 0).
Proof. intros H. rewrite (nth_indep _ Und (Fin 0)) by (rewrite map_length; auto). apply (map_nth Fin). Qed.
Lemma all_fin xs : (forall x, In x xs -> exists r, x = Fin r) -> exists rs, xs = map Fin rs.
Proof.
  induction xs as [|x xs IH]; intros H; [exists []; reflexivity|]. destruct (H x (or_introl eq_refl)) as (r & ->).
  destruct IH as (rs & ->); [intros; apply H; cbn; auto|]. exists (r :: rs). reflexivity.
Qed.
Lemma rets_fin rs : rets (map Fin rs) = Ret (map Fin rs).
Proof. induction rs as [|r rs IH]; [reflexivity|]. cbn [map rets]. rewrite bind_fin, IH. reflexivity. Qed.
Lemma ok_run m p : forall env env0 rs, (forall t, length (env t) = length env0) -> etends env env0 -> (forall n, (n < length env0)%nat -> ok (fun t => nth n (env t) Und)) ->
  openp (length env0) p = true -> run m p env0 = Ret (map Fin rs) -> F (fun t => exists rs', run m p (env t) = Ret (map Fin rs')).
Proof.
  induction p as [es|e p IH|c e1 e2 p IHp q IHq]; intros env env0 rs L H K O E; cbn [run openp] in *; [| |discriminate].
  - assert (U : forall e, ~ bad (ev m env0 e) -> opene e = true -> ok (fun t => ev m (env t) e)).
    { intros e N Oe. apply ok_ev with env0; auto. }
    rewrite forallb_forall in O. destruct (rets_cases (map (ev m env0) es)) as [Q|(e & Q)]; rewrite Q in E; [|discriminate]. injection E as E.
    assert (A : F (fun t => forall e, In e es -> exists r, ev m (env t) e = Fin r)).
    { apply (F_all expr es (fun e t => exists r, ev m (env t) e = Fin r)). intros e He. assert (X : In (ev m env0 e) (map Fin rs)) by (rewrite <- E; apply in_map, He).
      apply in_map_iff in X as (r & Er & _). assert (Te := tends_ev m env env0 e H (opene_reg m env0 e (O e He))). rewrite <- Er in Te.
      assert (Ke := U e ltac:(rewrite <- Er; cbn; auto) (O e He)). apply F_imp with (2 := ok_fin T F F_and F_imp _ _ 1 ltac:(lra) Te Ke). intros t (v & V & _). eauto. }
    apply F_imp with (2 := A). intros t Ht. destruct (all_fin (map (ev m (env t)) es)) as (rs' & Ers).
    + intros x Hx. apply in_map_iff in Hx as (e & <- & He). auto.
    + exists rs'. rewrite Ers. apply rets_fin.
  - apply andb_true_iff in O as [O O3]. apply andb_true_iff in O as [O1 O2].
    assert (E' : run m p (env0 ++ [ev m env0 e]) = Ret (map Fin rs)) by (destruct (ev m env0 e); auto; discriminate E).
    assert (Lk : length (env0 ++ [ev m env0 e]) = S (length env0)) by (rewrite app_length; cbn; lia).
    assert (N : ~ bad (ev m env0 e)).
    { intros B. destruct (bad_run m p (length env0) (env0 ++ [ev m env0 e]) (map Fin rs)) as (i & Li & Bi); rewrite ?Lk; auto.
      - rewrite app_nth2, Nat.sub_diag by lia. exact B.
      - rewrite map_length in Li. rewrite map_Fin_nth in Bi by exact Li. exact Bi. }
    assert (Te := tends_ev m env env0 e H (opene_reg m env0 e O1)).
    assert (Ke : ok (fun t => ev m (env t) e)) by (apply ok_ev with env0; auto).
    assert (X := IH (fun t => env t ++ [ev m (env t) e]) (env0 ++ [ev m env0 e]) rs).
    assert (Y : F (fun t => exists rs', run m p (env t ++ [ev m (env t) e]) = Ret (map Fin rs'))).
    { apply X; auto.
      - intros t. rewrite !app_length, L. reflexivity.
      - apply etends_snoc; auto.
      - intros n Ln. rewrite Lk in Ln. destruct (Nat.eq_dec n (length env0)) as [->|Nn].
        + apply F_imp with (2 := Ke). intros t Bt. rewrite app_nth2, L, Nat.sub_diag by (rewrite L; lia). exact Bt.
        + apply F_imp with (2 := K n ltac:(lia)). intros t Bt. rewrite app_nth1 by (rewrite L; lia). exact Bt.
      - rewrite Lk. exact O3. }
    apply F_imp with (2 := F_and _ _ Ke Y). intros t [Kt (rs' & Yt)]. exists rs'. destruct (ev m (env t) e); auto. destruct (Kt I).
Qed.
End Lim.

(** ** The inputs near an input *)
Definition near (xs : list R) (P : list R -> Prop) : Prop := exists d, 0 < d /\ forall xs', within d xs xs' -> P xs'.
Lemma within_mono d d' xs ys : d <= d' -> within d xs ys -> within d' xs ys.
Proof. intros L H. induction H; constructor; auto. lra. Qed.
Lemma within_length d xs ys : within d xs ys -> length ys = length xs.
Proof. induction 1; cbn; auto. Qed.
Lemma within_nth d xs ys i : within d xs ys -> (i < length xs)%nat -> Rabs (nth i ys 0 - nth i xs 0) < d.
Proof. intros H. revert i. induction H; intros i Hi; [cbn in Hi; lia|]. destruct i; cbn; auto. apply IHForall2. cbn in Hi. lia. Qed.
Lemma nth_within d xs ys : length ys = length xs -> (forall i, (i < length xs)%nat -> Rabs (nth i ys 0 - nth i xs 0) < d) -> within d xs ys.
Proof.
  revert ys. induction xs as [|x xs IH]; intros [|y ys] L H; try discriminate; constructor.
  - apply (H O). cbn; lia.
  - apply IH; [cbn in L; lia|]. intros i Hi. apply (H (S i)). cbn; lia.
Qed.
Lemma near_true xs : near xs (fun _ => True).
Proof. exists 1. split; [lra|auto]. Qed.
Lemma near_and xs P Q : near xs P -> near xs Q -> near xs (fun t => P t /\ Q t).
Proof.
  intros (d1 & D1 & H1) (d2 & D2 & H2). exists (Rmin d1 d2). split; [apply Rmin_pos; auto|]. intros xs' H.
  split; [apply H1|apply H2]; apply within_mono with (2 := H); [apply Rmin_l|apply Rmin_r].
Qed.
Lemma near_imp xs (P Q : list R -> Prop) : (forall t, P t -> Q t) -> near xs P -> near xs Q.
Proof. intros H (d & D & K). exists d. auto. Qed.
Lemma near_within xs d : 0 < d -> near xs (fun t => within d xs t).
Proof. intros D. exists d. auto. Qed.
(** The arguments tend to the arguments. *)
Definition argenv (n : nat) (t : list R) : list fl := map Fin (firstn n (t ++ repeat 0 n)).
Lemma argenv_length n t : length (argenv n t) = n.
Proof. unfold argenv. rewrite map_length, firstn_length, app_length, repeat_length. lia. Qed.
Lemma argenv_eq n t : length t = n -> argenv n t = map Fin t.
Proof. intros L. unfold argenv. rewrite <- L, firstn_app, Nat.sub_diag, firstn_all, firstn_O, app_nil_r. reflexivity. Qed.
Lemma tends_args xs n : length xs = n -> etends (list R) (near xs) (argenv n) (map Fin xs).
Proof.
  intros L k. destruct (Nat.lt_ge_cases k n) as [K|K].
  - rewrite map_Fin_nth by lia. intros eps He. apply near_imp with (2 := near_within xs eps He). intros t Ht.
    right. rewrite argenv_eq by (rewrite (within_length _ _ _ Ht); exact L). rewrite map_Fin_nth by (rewrite (within_length _ _ _ Ht); lia).
    exists (nth k t 0). split; auto. apply within_nth; auto. lia.
  - rewrite nth_overflow by (rewrite map_length; lia). exact I.
Qed.
Fixpoint nrets (p : prog) : nat := match p with PRet es => length es | PLet _ p => nrets p | PIf _ _ _ p _ => nrets p end.
Fixpoint even_rets (p : prog) : bool := match p with PRet _ => true | PLet _ p => even_rets p | PIf _ _ _ p q => even_rets p && even_rets q && Nat.eqb (nrets p) (nrets q) end.
Lemma run_length m p : forall env ys, even_rets p = true -> run m p env = Ret ys -> length ys = nrets p.
Proof.
  induction p; intros env ys S E; cbn in *.
  - destruct (rets_cases (map (ev m env) es)) as [K|(e & K)]; rewrite K in E; [|discriminate]. injection E as <-. apply map_length.
  - destruct (ev m env e); cbn in E; try discriminate; eauto.
  - apply andb_true_iff in S as [S S3]. apply andb_true_iff in S as [S1 S2]. apply Nat.eqb_eq in S3.
    destruct (semc c (ev m env e1) (ev m env e2)) as [[|]|]; [eauto|rewrite S3; eauto|discriminate].
Qed.
Lemma tames_even m p : tames m p -> even_rets p = true.
Proof. induction p; cbn; tauto. Qed.
Lemma near_tends_out xs (g : list R -> outcome (list fl)) rs : (forall t rs', g t = Ret (map Fin rs') -> length rs' = length rs) ->
  (forall i, tends (list R) (near xs) (fun t => outn i (g t)) (nth i (map Fin rs) Und)) -> forall eps, 0 < eps ->
  near xs (fun t => forall rs', g t = Ret (map Fin rs') -> within eps rs rs').
Proof.
  intros L H eps He.
  assert (A : near xs (fun t => forall i, In i (seq 0 (length rs)) -> near_fin eps (nth i rs 0) (outn i (g t)))).
  { apply (F_all _ _ (near_true xs) (near_and xs) (near_imp xs) nat (seq 0 (length rs)) (fun i t => near_fin eps (nth i rs 0) (outn i (g t)))).
    intros i Hi. apply in_seq in Hi. assert (X := H i). rewrite map_Fin_nth in X by lia. apply X, He. }
  apply near_imp with (2 := A). intros t Ht rs' E. apply nth_within; [eapply L; eauto|]. intros i Hi.
  destruct (Ht i ltac:(apply in_seq; lia)) as [B|(v & V & C)]; rewrite E in *; cbn [outn] in *; rewrite map_Fin_nth in * by (rewrite (L t rs' E); lia); [destruct B|].
  injection V as ->. exact C.
Qed.
Theorem regs_continuous m n p (D : list R -> Prop) (f : list fl -> outcome (list fl)) :
  (forall l, length l = n -> f l = run m p l) -> (forall l, length l <> n -> f l = Unknown) -> even_rets p = true ->
  (forall xs ys, D xs -> length xs = n -> run m p (map Fin xs) = Ret (map Fin ys) -> regs m n (map Fin xs) p) -> continuous_on D f.
Proof.
  intros F1 F2 S HR xs ys HD E eps He. assert (L : length xs = n) by (destruct (Nat.eq_dec (length xs) n); auto; rewrite F2 in E by (rewrite map_length; auto); discriminate).
  rewrite F1 in E by (rewrite map_length; exact L). assert (R0 := HR xs ys HD L E).
  assert (X : forall i, tends (list R) (near xs) (fun t => outn i (run m p (argenv n t))) (nth i (map Fin ys) Und)).
  { apply (tends_run (list R) (near xs) (near_true xs) (near_and xs) (near_imp xs) m n p (argenv n) (map Fin xs) (map Fin ys)); auto.
    - rewrite map_length. lia.
    - intros t; rewrite argenv_length, map_length; auto.
    - intros k Hk. exists 1. split; [lra|]. intros t W. rewrite argenv_eq by (rewrite (within_length _ _ _ W); exact L).
      rewrite map_Fin_nth by (rewrite (within_length _ _ _ W); lia). cbn. auto.
    - apply tends_args, L. }
  destruct (near_tends_out xs (fun t => run m p (argenv n t)) ys) with (eps := eps) as (d & Hd & P); auto.
  - intros t rs' E'. apply run_length in E, E'; auto. rewrite map_length in *. congruence.
  - exists d. split; auto. intros xs' ys' W E'. assert (L' := within_length _ _ _ W). rewrite F1 in E' by (rewrite map_length; congruence).
    apply (P xs' W). rewrite argenv_eq by congruence. exact E'.
Qed.
Theorem tames_continuous m n p (f : list fl -> outcome (list fl)) :
  (forall l, length l = n -> f l = run m p l) -> (forall l, length l <> n -> f l = Unknown) -> tames m p -> continuous_fn f.
Proof. intros F1 F2 HT. apply (regs_continuous m n p); auto; [eapply tames_even; eauto|]. intros. apply tames_regs, HT. Qed.
Theorem openp_robust m n p (f : list fl -> outcome (list fl)) :
  (forall l, length l = n -> f l = run m p l) -> (forall l, length l <> n -> f l = Unknown) -> openp n p = true -> robust_fn f.
Proof.
  intros F1 F2 HO xs ys _ E. assert (L : length xs = n) by (destruct (Nat.eq_dec (length xs) n); auto; rewrite F2 in E by (rewrite map_length; auto); discriminate).
  rewrite F1 in E by (rewrite map_length; exact L).
  assert (X := ok_run (list R) (near xs) (near_true xs) (near_and xs) (near_imp xs) m p (argenv n) (map Fin xs) ys
    ltac:(intros t; rewrite argenv_length, map_length; auto) (tends_args xs n L)).
  destruct X as (d & Hd & P); auto.
  - intros k Hk. rewrite map_length in Hk. exists 1. split; [lra|]. intros t W. rewrite argenv_eq by (rewrite (within_length _ _ _ W); exact L).
    rewrite map_Fin_nth by (rewrite (within_length _ _ _ W); exact Hk). cbn. auto.
  - rewrite map_length, L. exact HO.
  - exists d. split; auto. intros xs' W. destruct (P xs' W) as (rs' & E'). exists rs'. rewrite F1 by (rewrite map_length, (within_length _ _ _ W); exact L).
    rewrite argenv_eq in E' by (rewrite (within_length _ _ _ W); exact L). exact E'.
Qed.
