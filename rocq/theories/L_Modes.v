(** * L_Modes: the programs in the two arithmetics *)
From Verif Require Import Fl M_Array Spec16 Spec29 L_Array.
Open Scope fl_scope.

Lemma ref_nth xs ys : Forall2 (ref PyFloat) xs ys -> forall k, ref PyFloat (nth k xs Und) (nth k ys Und).
Proof. intros H. induction H; intros [|k]; cbn [nth]; auto; apply ref_refl. Qed.
Lemma no_exc_nth ys : Forall no_exc ys -> forall k, no_exc (nth k ys Und).
Proof. intros H. induction H; intros [|k]; cbn; auto. Qed.
Lemma ev_no_exc ys e : Forall no_exc ys -> no_exc (ev NumPy ys e).
Proof. intros H. induction e; cbn [ev]; [apply no_exc_nth, H|exact I|apply sem1_no_exc; auto|apply sem2_no_exc; auto]. Qed.
Lemma ev_ref xs ys e : Forall2 (ref PyFloat) xs ys -> Forall no_exc ys -> ref PyFloat (ev PyFloat xs e) (ev NumPy ys e).
Proof.
  intros H N. induction e; cbn [ev];
    [apply ref_nth, H|apply ref_refl|apply sem1_ref; auto using ev_no_exc|apply (sem2_ref PyFloat); auto using ev_no_exc].
Qed.

Lemma rets_no_exc ys : Forall no_exc ys -> rets ys = Ret ys.
Proof. intros H. induction H as [|y ys N H IH]; [reflexivity|]. destruct y; try contradiction N; cbn; rewrite IH; reflexivity. Qed.
Lemma rets_same xs : forall us, rets xs = Ret us -> us = xs /\ Forall no_exc xs.
Proof.
  induction xs as [|x xs IH]; intros us E; [injection E as <-; auto|].
  destruct x; cbn in E; try discriminate E; destruct (rets xs) as [vs| |]; try discriminate E; injection E as <-;
    destruct (IH vs eq_refl) as [-> F]; split; auto; constructor; auto; exact I.
Qed.
Lemma ref_same x y : no_exc x -> ref PyFloat x y -> same_or_complex x y.
Proof. intros N [->|[->|(e & ->)]]; [left|right|contradiction N]; reflexivity. Qed.

Lemma run_ref p : forall xs ys us, Forall2 (ref PyFloat) xs ys -> Forall no_exc ys -> run PyFloat p xs = Ret us ->
  exists us', run NumPy p ys = Ret us' /\ Forall2 same_or_complex us us'.
Proof.
  induction p as [es|e p IH|c e1 e2 p IHp q IHq]; intros xs ys us H N E; cbn [run] in *.
  - apply rets_same in E. destruct E as [-> F]. exists (map (ev NumPy ys) es). split.
    + apply rets_no_exc, Forall_forall. intros y Q. apply in_map_iff in Q. destruct Q as (e & <- & _). apply ev_no_exc, N.
    + induction es as [|e es IH]; cbn [map] in *; constructor; inversion F; subst; auto. apply ref_same; auto. apply ev_ref; auto.
  - assert (R := ev_ref xs ys e H N). assert (X := ev_no_exc ys e N).
    assert (Y : no_exc (ev PyFloat xs e)) by (destruct (ev PyFloat xs e); try exact I; discriminate E).
    assert (E1 : run PyFloat p (xs ++ [ev PyFloat xs e]) = Ret us) by (destruct (ev PyFloat xs e); try exact E; contradiction Y).
    destruct (IH (xs ++ [ev PyFloat xs e]) (ys ++ [ev NumPy ys e]) us) as (us' & E2 & S); auto.
    + apply Forall2_app; auto.
    + apply Forall_app; auto.
    + exists us'. split; auto. destruct (ev NumPy ys e); try exact E2; contradiction X.
  - destruct (semc c (ev PyFloat xs e1) (ev PyFloat xs e2)) as [b|] eqn:C; [|discriminate E].
    rewrite (semc_ref PyFloat c _ _ (ev NumPy ys e1) (ev NumPy ys e2) b (ev_ref xs ys e1 H N) (ev_ref xs ys e2 H N)) by (auto using ev_no_exc).
    destruct b; eauto.
Qed.

(** ** Exceptions *)
Definition only_zde (x : fl) : Prop := forall e, x = Exc e -> e = ZeroDivisionError.
Lemma sem1_zde o x : only_zde x -> only_zde (sem1 o x).
Proof.
  intros H e' E. assert (D : no_exc x \/ exists e, x = Exc e) by (destruct x; simpl; eauto).
  destruct D as [N|(e & ->)]; [|rewrite sem1_exc in E; exact (H e' E)].
  apply (sem1_no_exc o) in N. rewrite E in N. contradiction N.
Qed.
Lemma sem2_zde m o x y : only_zde x -> only_zde y -> only_zde (sem2 m o x y).
Proof.
  intros H1 H2 e E. destruct o, x as [a| | | |e1], y as [b| | | |e2]; simpl in E;
    repeat match type of E with context [if ?b then _ else _] => destruct b end;
    try discriminate E; try (injection E as <-); auto.
Qed.
Lemma ev_zde m xs e : Forall only_zde xs -> only_zde (ev m xs e).
Proof.
  intros H. induction e; cbn [ev]; [|intros ? E; discriminate E|apply sem1_zde; auto|apply sem2_zde; auto].
  destruct (nth_in_or_default n xs Und) as [Q| ->]; [apply (proj1 (Forall_forall _ _) H _ Q)|intros ? E; discriminate E].
Qed.
Lemma rets_zde xs : Forall only_zde xs -> forall e, rets xs = Raise e -> e = ZeroDivisionError.
Proof.
  intros H. induction H as [|x xs Z H IH]; intros e E; [discriminate E|].
  destruct x as [a| | | |e1]; cbn in E; try (injection E as <-; apply Z; reflexivity);
    (destruct (rets xs) as [vs|e2|]; try discriminate E; injection E as <-; apply IH; reflexivity).
Qed.
Lemma run_zde m p : forall xs e, Forall only_zde xs -> run m p xs = Raise e -> e = ZeroDivisionError.
Proof.
  induction p as [es|e p IH|c e1 e2 p IHp q IHq]; intros xs ex H E; cbn [run] in *.
  - apply rets_zde in E; auto. apply Forall_forall. intros y Q. apply in_map_iff in Q. destruct Q as (e & <- & _). apply ev_zde, H.
  - assert (Z := ev_zde m xs e H).
    destruct (ev m xs e) as [a| | | |e1] eqn:V; cbn in E; [| | | |injection E as <-; apply Z; reflexivity];
      (eapply IH; [|exact E]; apply Forall_app; auto).
  - destruct (semc c (ev m xs e1) (ev m xs e2)) as [[|]|]; eauto; discriminate E.
Qed.
Lemma no_exc_zde xs : Forall no_exc xs -> Forall only_zde xs.
Proof. intros H. induction H as [|x xs N H IH]; constructor; auto. intros e ->. contradiction N. Qed.
Lemma run_np p : forall ys e, Forall no_exc ys -> run NumPy p ys <> Raise e.
Proof.
  induction p as [es|e p IH|c e1 e2 p IHp q IHq]; intros ys ex N E; cbn [run] in E.
  - rewrite rets_no_exc in E; [discriminate E|]. apply Forall_forall. intros y Q. apply in_map_iff in Q. destruct Q as (e & <- & _). apply ev_no_exc, N.
  - assert (X := ev_no_exc ys e N).
    destruct (ev NumPy ys e) as [a| | | |e1]; cbn in E; try contradiction X; (eapply IH; [|exact E]; apply Forall_app; auto).
  - destruct (semc c (ev NumPy ys e1) (ev NumPy ys e2)) as [[|]|]; [eapply IHp; eauto|eapply IHq; eauto|discriminate E].
Qed.

(** ** Programs with no division by a variable *)
Lemma ev_lit xs e : by_literals e -> ev PyFloat xs e = ev NumPy xs e.
Proof.
  induction e as [n|r|o e IH|o a IHa b IHb]; cbn [ev by_literals]; intros H; auto; [rewrite IH; auto|].
  destruct H as (A & B & C). rewrite IHa, IHb by auto. destruct o; try reflexivity; [|contradiction C].
  destruct b as [|r| |]; try (exfalso; exact C). cbn [ev sem2].
  destruct (ev NumPy xs a); cbn; try reflexivity; destruct (Req_EM_T r 0) as [Z|Z]; try (destruct (C Z)); reflexivity.
Qed.
Lemma run_lit p : forall xs, divides_by_literals p -> run PyFloat p xs = run NumPy p xs.
Proof.
  induction p as [es|e p IH|c e1 e2 p IHp q IHq]; intros xs H; cbn [run divides_by_literals] in *.
  - f_equal. induction es as [|e es IH]; [reflexivity|]. cbn [map fold_right] in *. destruct H. rewrite ev_lit, IH; auto.
  - destruct H. rewrite ev_lit by auto. destruct (ev NumPy xs e); cbn; auto.
  - destruct H as (A & B & C & D). rewrite !ev_lit by auto. destruct (semc c _ _) as [[|]|]; auto.
Qed.
