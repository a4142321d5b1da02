(** * L_Grid: runs of a program on grids against its runs on numbers. *)
From Verif Require Import Fl M_Array Spec16 L_Array M_Grid Spec17.
Open Scope fl_scope.

Lemma entry_at i j v : entry i j v = at_ i j v.
Proof. destruct v as [x|d [|[|r]] [|[|c]] f]; reflexivity. Qed.
Lemma map_entry i j vs : map (entry i j) vs = map (at_ i j) vs.
Proof. apply map_ext. intros v. apply entry_at. Qed.
Definition grelv (m : mode) (i j : nat) (x : fl) (v : gval) : Prop :=
  match v with GS y => x = y | GA _ _ _ _ => ref m x (at_ i j v) end.
Lemma grelv_ref m i j x v : grelv m i j x v -> ref m x (at_ i j v).
Proof. destruct v; simpl; [intros ->; apply ref_refl|auto]. Qed.

Lemma at_value n k i j v : gsize_ok n k v -> (i < n)%nat -> (j < k)%nat -> gis_value v -> no_exc (at_ i j v).
Proof.
  destruct v as [x|d r c f]; intros S Hi Hj V; [exact V|]. destruct S as [Sr Sc]. cbn [at_]. apply V.
  - destruct (Nat.eqb_spec r 1); lia.
  - destruct (Nat.eqb_spec c 1); lia.
Qed.
Lemma bdim_ok n a b : a = 1%nat \/ a = n -> b = 1%nat \/ b = n ->
  exists d, bdim a b = Some d /\ (d = 1%nat \/ d = n) /\ (d = 1%nat -> a = 1%nat /\ b = 1%nat).
Proof.
  intros Ha Hb. unfold bdim. destruct (Nat.eqb_spec a b) as [E|E]; [exists a; repeat split; auto; lia|].
  destruct (Nat.eqb_spec a 1); [exists b; repeat split; auto; lia|].
  destruct (Nat.eqb_spec b 1); [exists a; repeat split; auto; lia|]. lia.
Qed.
Lemma bdim_lt a b d i : bdim a b = Some d -> (i < d)%nat ->
  ((if Nat.eqb a 1 then 0%nat else i) < a)%nat /\ ((if Nat.eqb b 1 then 0%nat else i) < b)%nat.
Proof.
  unfold bdim. destruct (Nat.eqb_spec a b), (Nat.eqb_spec a 1), (Nat.eqb_spec b 1); intros [= <-]; lia.
Qed.

Definition grels (m : mode) (i j : nat) (xs : list fl) (vs : list gval) : Prop := Forall2 (grelv m i j) xs vs.
Lemma grels_nth m i j xs vs k : grels m i j xs vs -> grelv m i j (nth k xs Und) (nth k vs (GS Und)).
Proof. intros H; revert k. induction H; intros [|k]; simpl; auto. Qed.
Lemma gargs_nth n k env q : gargs_ok n k env -> gsize_ok n k (nth q env (GS Und)) /\ gis_value (nth q env (GS Und)).
Proof.
  intros H. destruct (nth_in_or_default q env (GS Und)) as [Hi| ->]; [apply H; auto|simpl; auto].
Qed.

(** Stretching twice is stretching once. *)
Lemma at_broadcast n k i j d d' r r' c c' R C f g h :
  gsize_ok n k (GA d r c f) -> gsize_ok n k (GA d' r' c' g) -> (i < n)%nat -> (j < k)%nat ->
  bdim r r' = Some R -> bdim c c' = Some C ->
  at_ i j (GA (Nat.max d d') R C (fun i j => h (at_ i j (GA d r c f)) (at_ i j (GA d' r' c' g))))
  = h (at_ i j (GA d r c f)) (at_ i j (GA d' r' c' g)).
Proof.
  intros [Sr Sc] [Sr' Sc'] Hi Hj ER EC. cbn [at_].
  destruct (bdim_ok n r r' Sr Sr') as (R' & ER' & SR & UR). rewrite ER in ER'. injection ER' as <-.
  destruct (bdim_ok k c c' Sc Sc') as (C' & EC' & SC & UC). rewrite EC in EC'. injection EC' as <-.
  destruct (Nat.eqb_spec R 1) as [E1|E1].
  - destruct (UR E1) as [-> ->]. cbn [Nat.eqb].
    destruct (Nat.eqb_spec C 1) as [E2|E2]; [destruct (UC E2) as [-> ->]|]; reflexivity.
  - destruct (Nat.eqb_spec C 1) as [E2|E2]; [destruct (UC E2) as [-> ->]|]; reflexivity.
Qed.

Lemma gev_sound m n k env e : gargs_ok n k env ->
  match ev_grid m env e with
  | Ret v => gsize_ok n k v /\ gis_value v /\
             forall i j xs, (i < n)%nat -> (j < k)%nat -> grels m i j xs env -> grelv m i j (ev m xs e) v
  | Raise _ => m = PyFloat /\ forall i j xs, (i < n)%nat -> (j < k)%nat -> grels m i j xs env -> exists e', ev m xs e = Exc e'
  | Unknown => False
  end.
Proof.
  intros Henv. induction e as [q|r|o e IH|o e1 IH1 e2 IH2]; cbn [ev_grid ev].
  - destruct (gargs_nth n k env q Henv) as [H1 H2]. split; [auto|split; [auto|]]. intros i j xs _ _ H. apply grels_nth; auto.
  - simpl; auto.
  - destruct (ev_grid m env e) as [v|ex|]; cbn [call]; auto.
    + destruct IH as (Hs & Hv & Hr). destruct v as [x|d r c f]; cbn [gapp1].
      * assert (N : no_exc (sem1 o x)) by (apply sem1_no_exc, Hv).
        unfold gnum. destruct (sem1 o x) eqn:E; try contradiction;
          (split; [exact I|split; [exact I|intros i j xs Hi Hj Hx; specialize (Hr i j xs Hi Hj Hx); simpl in Hr |- *; rewrite Hr; auto]]).
      * split; [exact Hs|]. split.
        { intros i j Hi Hj. apply sem1_no_exc, Hv; auto. }
        intros i j xs Hi Hj Hx. specialize (Hr i j xs Hi Hj Hx).
        apply (sem1_ref m o _ _ Hr), (at_value n k i j (GA d r c f)); auto.
    + destruct IH as (Hm & H). split; auto. intros i j xs Hi Hj Hx. destruct (H i j xs Hi Hj Hx) as [e' ->]. exists e'. apply sem1_exc.
  - destruct (ev_grid m env e1) as [v|ex|]; cbn [call]; auto.
    2:{ destruct IH1 as (Hm & H). split; auto. intros i j xs Hi Hj Hx. destruct (H i j xs Hi Hj Hx) as [e' ->]. apply sem2_exc. }
    destruct (ev_grid m env e2) as [w|ex|]; cbn [call]; auto.
    2:{ destruct IH2 as (Hm & H). split; auto. intros i j xs Hi Hj Hx. destruct (H i j xs Hi Hj Hx) as [e' ->]. apply sem2_exc_r. }
    destruct IH1 as (Hs1 & Hv1 & Hr1), IH2 as (Hs2 & Hv2 & Hr2).
    assert (R : forall i j xs, (i < n)%nat -> (j < k)%nat -> grels m i j xs env ->
      ref m (sem2 m o (ev m xs e1) (ev m xs e2)) (sem2 NumPy o (at_ i j v) (at_ i j w))).
    { intros i j xs Hi Hj Hx. apply sem2_ref; try (apply grelv_ref; auto); apply (at_value n k); auto. }
    destruct v as [x|d r c f], w as [y|d' r' c' g]; cbn [gapp2].
    + assert (Q : forall i j xs, (i < n)%nat -> (j < k)%nat -> grels m i j xs env ->
        sem2 m o (ev m xs e1) (ev m xs e2) = sem2 m o x y).
      { intros i j xs Hi Hj Hx. specialize (Hr1 i j xs Hi Hj Hx); specialize (Hr2 i j xs Hi Hj Hx). simpl in Hr1, Hr2. congruence. }
      unfold gnum. destruct (sem2 m o x y) eqn:E; try (split; [exact I|split; [exact I|exact Q]]).
      destruct m; [split; eauto|].
      exfalso. assert (N := sem2_no_exc o x y Hv1 Hv2). rewrite E in N. exact N.
    + split; [exact Hs2|]. split; [|exact R].
      intros i j Hi Hj. apply sem2_no_exc; [exact Hv1|apply Hv2; auto].
    + split; [exact Hs1|]. split; [|exact R].
      intros i j Hi Hj. apply sem2_no_exc; [apply Hv1; auto|exact Hv2].
    + destruct (bdim_ok n r r' (proj1 Hs1) (proj1 Hs2)) as (RR & ER & SR & UR).
      destruct (bdim_ok k c c' (proj2 Hs1) (proj2 Hs2)) as (CC & EC & SC & UC).
      rewrite ER, EC. split; [split; auto|]. split.
      * intros i j Hi Hj. destruct (bdim_lt _ _ _ _ ER Hi), (bdim_lt _ _ _ _ EC Hj).
        apply sem2_no_exc; cbn [at_]; [apply Hv1|apply Hv2]; auto.
      * intros i j xs Hi Hj Hx. cbn [grelv].
        rewrite (at_broadcast n k i j d d' r r' c c' RR CC f g (sem2 NumPy o)); auto.
Qed.

(** ** Programs *)
Definition gres_ok (m : mode) (i j : nat) (r : outcome (list fl)) (out : list gval) : Prop :=
  match r with Ret xs => grels m i j xs out | Raise _ => m = PyFloat | Unknown => m = PyFloat end.

Lemma grets_sound m n k env es : gargs_ok n k env ->
  match ev_grids m env es with
  | Ret out => gargs_ok n k out /\
      forall i j xs, (i < n)%nat -> (j < k)%nat -> grels m i j xs env -> gres_ok m i j (rets (map (ev m xs) es)) out
  | Raise _ => m = PyFloat /\
      forall i j xs, (i < n)%nat -> (j < k)%nat -> grels m i j xs env -> raises (rets (map (ev m xs) es))
  | Unknown => False
  end.
Proof.
  intros Henv. induction es as [|e es IH]; cbn [ev_grids map rets].
  - split; [intros v []|]. intros i j xs _ _ _. constructor.
  - pose proof (gev_sound m n k env e Henv) as He.
    destruct (ev_grid m env e) as [v|ex|]; cbn [call]; auto.
    2:{ destruct He as (Hm & H). split; auto. intros i j xs Hi Hj Hx. destruct (H i j xs Hi Hj Hx) as [e' ->]. exists e'. reflexivity. }
    destruct He as (Hs & Hv & Hr).
    destruct (ev_grids m env es) as [vs|ex|]; cbn [call]; auto.
    2:{ destruct IH as (Hm & H). split; auto. intros i j xs Hi Hj Hx. destruct (H i j xs Hi Hj Hx) as [e' ->].
        destruct (ev m xs e); simpl; eexists; reflexivity. }
    destruct IH as (Ho & H). split.
    { intros w [<-|Hw]; auto. }
    intros i j xs Hi Hj Hx. specialize (Hr i j xs Hi Hj Hx). specialize (H i j xs Hi Hj Hx).
    destruct (ev m xs e) as [r| | | |ex] eqn:E; cbn [bind];
      try (destruct (rets (map (ev m xs) es)); cbn [call gres_ok] in *; auto; constructor; auto).
    simpl. destruct m; auto. exfalso.
    assert (N := at_value n k i j v Hs Hi Hj Hv). apply grelv_ref in Hr. simpl in Hr. rewrite <- Hr in N. exact N.
Qed.

Lemma gargs_app n k env v : gargs_ok n k env -> gsize_ok n k v -> gis_value v -> gargs_ok n k (env ++ [v]).
Proof. intros H H1 H2 w Hw. apply in_app_or in Hw as [Hw|[<-|[]]]; auto. Qed.
Lemma grels_app m i j xs vs x v : grels m i j xs vs -> grelv m i j x v -> grels m i j (xs ++ [x]) (vs ++ [v]).
Proof. intros H1 H2. apply Forall2_app; auto. Qed.

Lemma grun_straight m n k p : straight p = true -> forall env, gargs_ok n k env ->
  match run_grid m p env with
  | Ret out => gargs_ok n k out /\
      forall i j xs, (i < n)%nat -> (j < k)%nat -> grels m i j xs env -> gres_ok m i j (run m p xs) out
  | Raise _ => m = PyFloat /\ forall i j xs, (i < n)%nat -> (j < k)%nat -> grels m i j xs env -> raises (run m p xs)
  | Unknown => False
  end.
Proof.
  induction p as [es|e p IH|]; cbn [straight run_grid run]; intros S env Henv; [apply grets_sound; auto| |congruence].
  pose proof (gev_sound m n k env e Henv) as He.
  destruct (ev_grid m env e) as [v|ex|]; cbn [call]; auto.
  2:{ destruct He as (Hm & H). split; auto. intros i j xs Hi Hj Hx. destruct (H i j xs Hi Hj Hx) as [e' ->]. exists e'. reflexivity. }
  destruct He as (Hs & Hv & Hr). specialize (IH S (env ++ [v]) (gargs_app _ _ _ _ Henv Hs Hv)).
  destruct (run_grid m p (env ++ [v])) as [out|ex|]; auto.
  - destruct IH as [Ho IH]. split; auto. intros i j xs Hi Hj Hx. specialize (Hr i j xs Hi Hj Hx).
    destruct (ev m xs e) as [r| | | |ex] eqn:E; cbn [bind]; try (apply IH; [auto|auto|apply grels_app; auto]).
    simpl. destruct m; auto. exfalso.
    assert (N := at_value n k i j v Hs Hi Hj Hv). apply grelv_ref in Hr. simpl in Hr. rewrite <- Hr in N. exact N.
  - destruct IH as [Hm IH]. split; auto. intros i j xs Hi Hj Hx. specialize (Hr i j xs Hi Hj Hx).
    destruct (ev m xs e) as [r| | | |ex'] eqn:E; cbn [bind]; try (apply (IH i j); [auto|auto|apply grels_app; auto]).
    exists ex'; reflexivity.
Qed.

Lemma ats_rels m i j env : grels m i j (map (at_ i j) env) env.
Proof. induction env as [|v env IH]; constructor; auto. destruct v; simpl; [auto|apply ref_refl]. Qed.
Lemma grels_numpy i j xs vs : grels NumPy i j xs vs -> xs = map (at_ i j) vs.
Proof. intros H; induction H as [|x v xs vs Hx _ IH]; simpl; auto. rewrite IH. f_equal. destruct v; auto. Qed.
Lemma grels_py i j rs vs : grels PyFloat i j (map Fin rs) vs -> map Fin rs = map (at_ i j) vs.
Proof.
  revert vs; induction rs as [|r rs IH]; intros vs H; inversion H as [|x v xs vs' Hx Hxs]; subst; simpl; auto.
  rewrite <- (IH _ Hxs). f_equal. destruct v; auto. destruct Hx as [Hx|[Hx|[e Hx]]]; [auto|discriminate|discriminate].
Qed.

(** ** Any sizes: only a mismatch stops a straight program. *)
Definition gvals_ok (env : list gval) : Prop := forall v, In v env -> gis_value v.
Lemma gev_any env e : gvals_ok env ->
  match ev_grid NumPy env e with Ret v => gis_value v | Raise e => e = ValueError | Unknown => False end.
Proof.
  intros Henv. induction e as [k|r|o e IH|o e1 IH1 e2 IH2]; cbn [ev_grid].
  - destruct (nth_in_or_default k env (GS Und)) as [Hi| ->]; [apply Henv; auto|exact I].
  - exact I.
  - destruct (ev_grid NumPy env e) as [v|ex|]; cbn [call]; auto. destruct v as [x|d r c f]; cbn [gapp1].
    + pose proof (sem1_no_exc o x IH). unfold gnum. destruct (sem1 o x); simpl; auto; contradiction.
    + intros i j Hi Hj. apply sem1_no_exc, IH; auto.
  - destruct (ev_grid NumPy env e1) as [v|ex|]; cbn [call]; auto.
    destruct (ev_grid NumPy env e2) as [w|ex|]; cbn [call]; auto.
    destruct v as [x|d r c f], w as [y|d' r' c' g]; cbn [gapp2].
    + pose proof (sem2_no_exc o x y IH1 IH2). unfold gnum. destruct (sem2 NumPy o x y); simpl; auto; contradiction.
    + intros i j Hi Hj. apply sem2_no_exc; [exact IH1|apply IH2; auto].
    + intros i j Hi Hj. apply sem2_no_exc; [apply IH1; auto|exact IH2].
    + destruct (bdim r r') as [RR|] eqn:ER; auto. destruct (bdim c c') as [CC|] eqn:EC; auto.
      intros i j Hi Hj. destruct (bdim_lt _ _ _ _ ER Hi), (bdim_lt _ _ _ _ EC Hj).
      apply sem2_no_exc; cbn [at_]; [apply IH1|apply IH2]; auto.
Qed.
Lemma grun_any p : straight p = true -> forall env, gvals_ok env -> ret_or_valueerror (run_grid NumPy p env).
Proof.
  induction p as [es|e p IH|]; cbn [straight run_grid]; intros S env Henv; [| |congruence].
  - induction es as [|e es IHe]; cbn [ev_grids]; [exact I|].
    pose proof (gev_any env e Henv) as H. destruct (ev_grid NumPy env e) as [v|ex|]; cbn [call]; auto.
    destruct (ev_grids NumPy env es); cbn [call]; auto.
  - pose proof (gev_any env e Henv) as H. destruct (ev_grid NumPy env e) as [v|ex|]; cbn [call]; auto.
    apply IH; auto. intros w Hw. apply in_app_or in Hw as [Hw|[<-|[]]]; auto.
Qed.

(** ** Shapes *)
Lemma bdim_flag n (a a' : bool) : bdim (if a then n else 1%nat) (if a' then n else 1%nat) = Some (if a || a' then n else 1%nat).
Proof.
  unfold bdim. destruct a, a'; simpl; try rewrite !Nat.eqb_refl; auto.
  - destruct (Nat.eqb_spec n 1) as [->|]; auto.
  - destruct n as [|[|n]]; auto.
Qed.
Lemma gev_shape m n k ss env e v : Forall2 (has_shape n k) ss env -> ev_grid m env e = Ret v ->
  has_shape n k (eshape ss e) v.
Proof.
  intros H. revert v. induction e as [q|r|o e IH|o e1 IH1 e2 IH2]; cbn [ev_grid eshape]; intros v E.
  - injection E as <-. revert q. induction H as [|s w ss env Hs _ IHs]; intros [|q]; cbn [nth]; try reflexivity; auto.
  - injection E as <-. reflexivity.
  - destruct (ev_grid m env e) as [w|ex|]; cbn [call] in E; try discriminate. specialize (IH w eq_refl).
    destruct w as [x|d r c f]; cbn [gapp1] in E.
    + unfold gnum in E. destruct (sem1 o x); try discriminate; injection E as <-; exact IH.
    + injection E as <-. exact IH.
  - destruct (ev_grid m env e1) as [w1|ex|]; cbn [call] in E; try discriminate. specialize (IH1 w1 eq_refl).
    destruct (ev_grid m env e2) as [w2|ex|]; cbn [call] in E; try discriminate. specialize (IH2 w2 eq_refl).
    destruct (eshape ss e1) as [[d1 a1] b1], (eshape ss e2) as [[d2 a2] b2].
    destruct w1 as [x|d r c f], w2 as [y|d' r' c' g]; cbn [gapp2] in E; cbn [has_shape] in IH1, IH2.
    + injection IH1 as -> -> ->. injection IH2 as -> -> ->.
      unfold gnum in E. destruct (sem2 m o x y); try discriminate; injection E as <-; reflexivity.
    + injection IH1 as -> -> ->. injection E as <-. exact IH2.
    + injection IH2 as -> -> ->. injection E as <-. cbn [join has_shape].
      rewrite Nat.max_0_r, !orb_false_r. exact IH1.
    + destruct IH1 as (P1 & -> & -> & ->), IH2 as (P2 & -> & -> & ->). rewrite !bdim_flag in E. injection E as <-.
      cbn [join has_shape]. repeat split; auto. lia.
Qed.
Lemma grun_shape m n k p : straight p = true -> forall ss env out, Forall2 (has_shape n k) ss env ->
  run_grid m p env = Ret out -> Forall2 (has_shape n k) (pshapes p ss) out.
Proof.
  induction p as [es|e p IH|]; cbn [straight run_grid pshapes]; intros S ss env out H E; [| |discriminate].
  - revert out E. induction es as [|e es IHe]; cbn [ev_grids map]; intros out E.
    + injection E as <-. constructor.
    + destruct (ev_grid m env e) as [v|ex|] eqn:Ev; cbn [call] in E; try discriminate.
      destruct (ev_grids m env es) as [vs|ex|]; cbn [call] in E; try discriminate. injection E as <-.
      constructor; [apply (gev_shape m n k ss env e v); auto|apply IHe; auto].
  - destruct (ev_grid m env e) as [v|ex|] eqn:Ev; cbn [call] in E; try discriminate.
    apply (IH S _ _ _ (Forall2_app H (Forall2_cons _ _ (gev_shape m n k ss env e v H Ev) (Forall2_nil _))) E).
Qed.

(** ** A dimension other than 1 is the dimension of every result that depends on it. *)
Section Dim.
Variable hd : nat -> gval -> Prop.
Hypothesis hd1 : forall o v w C, hd C v -> gapp1 o v = Ret w -> hd C w.
Hypothesis hd2l : forall m o u v w C, C <> 1%nat -> hd C u -> gapp2 m o u v = Ret w -> hd C w.
Hypothesis hd2r : forall m o u v w C, C <> 1%nat -> hd C v -> gapp2 m o u v = Ret w -> hd C w.
Lemma gev_dim m C ks env e v : C <> 1%nat -> (forall q, nth q ks false = true -> hd C (nth q env (GS Und))) ->
  ev_grid m env e = Ret v -> kind ks e = true -> hd C v.
Proof.
  intros HC H. revert v. induction e as [q|r|o e IH|o e1 IH1 e2 IH2]; cbn [ev_grid kind]; intros v E K.
  - injection E as <-. auto.
  - discriminate.
  - destruct (ev_grid m env e) as [w|ex|]; cbn [call] in E; try discriminate. apply (hd1 o w v); auto.
  - destruct (ev_grid m env e1) as [w1|ex|]; cbn [call] in E; try discriminate.
    destruct (ev_grid m env e2) as [w2|ex|]; cbn [call] in E; try discriminate.
    apply orb_prop in K as [K|K]; [apply (hd2l m o w1 w2 v)|apply (hd2r m o w1 w2 v)]; auto.
Qed.
Lemma grun_dim m C p : C <> 1%nat -> straight p = true -> forall ks env out, length ks = length env ->
  (forall q, nth q ks false = true -> hd C (nth q env (GS Und))) ->
  run_grid m p env = Ret out -> Forall2 (fun b v => b = true -> hd C v) (kinds p ks) out.
Proof.
  intros HC. induction p as [es|e p IH|]; cbn [straight run_grid kinds]; intros S ks env out L H E; [| |discriminate].
  - revert out E. induction es as [|e es IHe]; cbn [ev_grids map]; intros out E.
    + injection E as <-. constructor.
    + destruct (ev_grid m env e) as [v|ex|] eqn:Ev; cbn [call] in E; try discriminate.
      destruct (ev_grids m env es) as [vs|ex|]; cbn [call] in E; try discriminate. injection E as <-.
      constructor; [intros K; apply (gev_dim m C ks env e v); auto|apply IHe; auto].
  - destruct (ev_grid m env e) as [v|ex|] eqn:Ev; cbn [call] in E; try discriminate.
    apply (IH S (ks ++ [kind ks e]) (env ++ [v]) out); auto; [rewrite !app_length; simpl; lia|].
    intros q Hq. destruct (Nat.lt_ge_cases q (length ks)) as [Hl|Hl].
    + rewrite app_nth1 in Hq by lia. rewrite app_nth1 by lia. auto.
    + rewrite app_nth2 in Hq by lia. rewrite app_nth2 by lia. rewrite <- L.
      destruct (q - length ks)%nat as [|[|t]]; cbn [nth] in *; try discriminate.
      apply (gev_dim m C ks env e v); auto.
Qed.
End Dim.
Lemma cols1 o v w C : has_cols C v -> gapp1 o v = Ret w -> has_cols C w.
Proof. destruct v as [x|d r c f]; simpl; [contradiction|]. intros -> [= <-]. reflexivity. Qed.
Lemma rows1 o v w C : has_rows C v -> gapp1 o v = Ret w -> has_rows C w.
Proof. destruct v as [x|d r c f]; simpl; [contradiction|]. intros -> [= <-]. reflexivity. Qed.
Lemma bdim_l a b d : a <> 1%nat -> bdim a b = Some d -> d = a.
Proof. unfold bdim. destruct (Nat.eqb_spec a b), (Nat.eqb_spec a 1), (Nat.eqb_spec b 1); intros H [= <-]; congruence. Qed.
Lemma bdim_r a b d : b <> 1%nat -> bdim a b = Some d -> d = b.
Proof. unfold bdim. destruct (Nat.eqb_spec a b), (Nat.eqb_spec a 1), (Nat.eqb_spec b 1); intros H [= <-]; congruence. Qed.
Lemma cols2l m o u v w C : C <> 1%nat -> has_cols C u -> gapp2 m o u v = Ret w -> has_cols C w.
Proof.
  intros HC. destruct u as [x|d r c f]; cbn [has_cols]; [contradiction|]. intros ->. destruct v as [y|d' r' c' g]; cbn [gapp2].
  - intros [= <-]. reflexivity.
  - destruct (bdim r r'); [|discriminate]. destruct (bdim C c') eqn:E; [|discriminate]. intros [= <-]. apply (bdim_l _ _ _ HC E).
Qed.
Lemma cols2r m o u v w C : C <> 1%nat -> has_cols C v -> gapp2 m o u v = Ret w -> has_cols C w.
Proof.
  intros HC. destruct v as [x|d r c f]; cbn [has_cols]; [contradiction|]. intros ->. destruct u as [y|d' r' c' g]; cbn [gapp2].
  - intros [= <-]. reflexivity.
  - destruct (bdim r' r); [|discriminate]. destruct (bdim c' C) eqn:E; [|discriminate]. intros [= <-]. apply (bdim_r _ _ _ HC E).
Qed.
Lemma rows2l m o u v w C : C <> 1%nat -> has_rows C u -> gapp2 m o u v = Ret w -> has_rows C w.
Proof.
  intros HC. destruct u as [x|d r c f]; cbn [has_rows]; [contradiction|]. intros ->. destruct v as [y|d' r' c' g]; cbn [gapp2].
  - intros [= <-]. reflexivity.
  - destruct (bdim C r') eqn:E; [|discriminate]. destruct (bdim c c'); [|discriminate]. intros [= <-]. apply (bdim_l _ _ _ HC E).
Qed.
Lemma rows2r m o u v w C : C <> 1%nat -> has_rows C v -> gapp2 m o u v = Ret w -> has_rows C w.
Proof.
  intros HC. destruct v as [x|d r c f]; cbn [has_rows]; [contradiction|]. intros ->. destruct u as [y|d' r' c' g]; cbn [gapp2].
  - intros [= <-]. reflexivity.
  - destruct (bdim r' C) eqn:E; [|discriminate]. destruct (bdim c' c); [|discriminate]. intros [= <-]. apply (bdim_r _ _ _ HC E).
Qed.
Lemma flags_nth q len i : nth i (map (Nat.eqb q) (seq 0 len)) false = true -> i = q.
Proof.
  intros H. destruct (Nat.lt_ge_cases i len) as [Hl|Hl].
  - rewrite (nth_indep _ false (Nat.eqb q 0)) in H by (rewrite map_length, seq_length; auto).
    rewrite map_nth, seq_nth in H by auto. apply Nat.eqb_eq in H. simpl in H. auto.
  - rewrite nth_overflow in H by (rewrite map_length, seq_length; auto). discriminate.
Qed.
Lemma Forall2_nth_flag (P : gval -> Prop) bs out t : Forall2 (fun b v => b = true -> P v) bs out ->
  nth t bs false = true -> exists v, nth_error out t = Some v /\ P v.
Proof.
  intros H; revert t. induction H as [|b v bs out Hb _ IH]; intros [|t]; simpl; try discriminate; auto.
  intros Hb'. exists v; auto.
Qed.
