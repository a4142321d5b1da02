(** * L_ModesArr: the programs on arrays, with Python or with NumPy numbers beside them *)
From Verif Require Import Fl M_Array Spec16 Spec29 L_Array L_Modes.
Open Scope fl_scope.

Definition soc (x y : fl) : Prop := same_or_complex x y /\ no_exc y.
Definition socs : list fl -> list fl -> Prop := Forall2 soc.
Definition socv (v w : val) : Prop :=
  match v, w with VS x, VS y => soc x y | VA a, VA b => socs a b | _, _ => False end.

Lemma soc_ref x y : soc x y -> ref PyFloat x y.
Proof. intros [[->| ->] N]; [left|right; left]; reflexivity. Qed.
Lemma soc_no_exc x y : soc x y -> no_exc x.
Proof. intros [[->| ->] N]; [exact N|exact I]. Qed.
Lemma soc_1 o x y : soc x y -> soc (sem1 o x) (sem1 o y).
Proof.
  intros H. split; [|apply sem1_no_exc, H]. apply ref_same; [apply sem1_no_exc; eapply soc_no_exc; eauto|].
  apply sem1_ref; [apply soc_ref, H|apply H].
Qed.
Lemma soc_np o x y x' y' : soc x x' -> soc y y' -> soc (sem2 NumPy o x y) (sem2 NumPy o x' y').
Proof.
  intros [[->| ->] N1] [[->| ->] N2]; (split; [|apply sem2_no_exc; auto]); unfold same_or_complex; auto.
  - destruct o, x' as [a| | | |e]; simpl in *; try contradiction; auto; destruct y' as [b| | | |e']; simpl; auto; try contradiction;
      destruct (Req_EM_T b 0); auto.
  - destruct o, y' as [b| | | |e']; simpl in *; try contradiction; auto;
      try (destruct (Req_EM_T b 0); auto); destruct x' as [a| | | |e]; simpl; auto; contradiction.
  - destruct o; simpl; auto.
Qed.
Lemma soc_py o x y x' y' : soc x x' -> soc y y' -> no_exc (sem2 PyFloat o x y) -> soc (sem2 PyFloat o x y) (sem2 NumPy o x' y').
Proof.
  intros H1 H2 N. split; [|apply sem2_no_exc; [apply H1|apply H2]]. apply ref_same; auto.
  apply (sem2_ref PyFloat); [apply soc_ref, H1|apply soc_ref, H2|apply H1|apply H2].
Qed.
Lemma num_np y : no_exc y -> num y = Ret (VS y).
Proof. destruct y; cbn; tauto. Qed.
Lemma num_py x v : num x = Ret v -> v = VS x /\ no_exc x.
Proof. destruct x; cbn; intros E; try discriminate E; injection E as <-; auto. Qed.
Lemma socs_map (f g : fl -> fl) a b : (forall x y, soc x y -> soc (f x) (g y)) -> socs a b -> socs (map f a) (map g b).
Proof. intros H S. induction S; cbn; constructor; auto. Qed.
Lemma socs_map2 f a b a' b' : (forall x y x' y', soc x x' -> soc y y' -> soc (f x y) (f x' y')) ->
  socs a a' -> socs b b' -> socs (map2 f a b) (map2 f a' b').
Proof. intros H S. revert b b'. induction S; intros b b' T; inversion T; subst; cbn; constructor; auto. apply IHS; auto. Qed.
Lemma socs_length a b : socs a b -> length a = length b.
Proof. intros H. induction H; cbn; congruence. Qed.
Lemma soc_app1 o v w u : socv v w -> app1 o v = Ret u -> exists u', app1 o w = Ret u' /\ socv u u'.
Proof.
  destruct v as [x|a], w as [y|b]; cbn [socv app1]; intros H E; try contradiction H.
  - apply num_py in E. destruct E as [-> _]. assert (S := soc_1 o x y H). exists (VS (sem1 o y)). split; [apply num_np, S|exact S].
  - injection E as <-. eexists. split; [reflexivity|]. cbn. apply socs_map; auto. intros; apply soc_1; auto.
Qed.
Lemma soc_app2 o v v2 w w2 u : socv v w -> socv v2 w2 -> app2 PyFloat o v v2 = Ret u ->
  exists u', app2 NumPy o w w2 = Ret u' /\ socv u u'.
Proof.
  destruct v as [x|a], w as [y|b], v2 as [x2|a2], w2 as [y2|b2]; cbn [socv app2]; intros H H2 E; try contradiction.
  - apply num_py in E. destruct E as [-> N]. assert (S := soc_py o _ _ _ _ H H2 N). eexists. split; [apply num_np, S|exact S].
  - injection E as <-. eexists. split; [reflexivity|]. cbn. apply socs_map; auto. intros; apply soc_np; auto.
  - injection E as <-. eexists. split; [reflexivity|]. cbn. apply (socs_map (fun z => sem2 NumPy o z x2) (fun z => sem2 NumPy o z y2)); auto.
    intros; apply soc_np; auto.
  - assert (L := socs_length _ _ H). assert (L2 := socs_length _ _ H2). unfold broadcast in E |- *. rewrite <- L, <- L2.
    destruct (Nat.eqb (length a) (length a2)).
    { cbn in E |- *. injection E as <-. eexists. split; [reflexivity|]. cbn. apply socs_map2; auto. intros; apply soc_np; auto. }
    inversion H as [|x y a1 b1 S1 T1]; subst; [inversion H2 as [|x2 y2 c1 d1 S2 T2]; subst; [discriminate E|]|].
    + inversion T2; subst; [|discriminate E]. cbn in E |- *. injection E as <-. eexists. split; [reflexivity|]. constructor.
    + inversion T1 as [|x3 y3 a3 b3 S3 T3]; subst.
      * cbn in E |- *. injection E as <-. eexists. split; [reflexivity|]. cbn. apply socs_map; auto. intros; apply soc_np; auto.
      * inversion H2 as [|x2 y2 c1 d1 S2 T2]; subst; [discriminate E|]. inversion T2; subst; [|discriminate E].
        cbn in E |- *. injection E as <-. eexists. split; [reflexivity|].
        apply (socs_map (fun z => sem2 NumPy o z x2) (fun z => sem2 NumPy o z y2) (x :: x3 :: a3) (y :: y3 :: b3)); auto. intros; apply soc_np; auto.
Qed.
Definition socvs : list val -> list val -> Prop := Forall2 socv.
Lemma soc_nth env env' n : socvs env env' -> socv (nth n env (VS Und)) (nth n env' (VS Und)).
Proof. intros H. revert n. induction H; intros [|n]; cbn [nth]; auto; split; cbn; auto; left; reflexivity. Qed.
Lemma soc_ev env env' e : socvs env env' -> forall u, ev_arr PyFloat env e = Ret u ->
  exists u', ev_arr NumPy env' e = Ret u' /\ socv u u'.
Proof.
  intros H. induction e as [n|r|o e IH|o a IHa b IHb]; cbn [ev_arr]; intros u E.
  - injection E as <-. eexists. split; [reflexivity|]. apply soc_nth, H.
  - injection E as <-. eexists. split; [reflexivity|]. split; [left; reflexivity|exact I].
  - destruct (ev_arr PyFloat env e) as [v| |]; try discriminate E. destruct (IH v eq_refl) as (v' & -> & S). cbn in E |- *.
    eapply soc_app1; eauto.
  - destruct (ev_arr PyFloat env a) as [v| |]; try discriminate E. destruct (IHa v eq_refl) as (v' & -> & S). cbn in E |- *.
    destruct (ev_arr PyFloat env b) as [w| |]; try discriminate E. destruct (IHb w eq_refl) as (w' & -> & T). cbn in E |- *.
    eapply soc_app2; eauto.
Qed.
Lemma soc_evs env env' es : socvs env env' -> forall us, ev_arrs PyFloat env es = Ret us ->
  exists us', ev_arrs NumPy env' es = Ret us' /\ socvs us us'.
Proof.
  intros H. induction es as [|e es IH]; cbn [ev_arrs]; intros us E; [injection E as <-; eexists; split; [reflexivity|constructor]|].
  destruct (ev_arr PyFloat env e) as [v| |] eqn:V; try discriminate E. destruct (soc_ev env env' e H v V) as (v' & -> & S). cbn in E |- *.
  destruct (ev_arrs PyFloat env es) as [vs| |]; try discriminate E. destruct (IH vs eq_refl) as (vs' & -> & T). cbn in E |- *.
  injection E as <-. eexists. split; [reflexivity|]. constructor; auto.
Qed.
Lemma soc_cmp c x y x' y' b : soc x x' -> soc y y' -> semc c x y = Some b -> semc c x' y' = Some b.
Proof. intros H1 H2. apply (semc_ref PyFloat); [apply soc_ref, H1|apply soc_ref, H2|apply H1|apply H2]. Qed.
Lemma soc_truth c v w v' w' b : socv v v' -> socv w w' -> truth c v w = Ret b -> truth c v' w' = Ret b.
Proof.
  assert (K : forall x y x' y', soc x x' -> soc y y' -> match semc c x y with Some b => Ret b | None => Unknown end = Ret b ->
            match semc c x' y' with Some b => Ret b | None => Unknown end = Ret b).
  { intros x y x' y' H1 H2 E. destruct (semc c x y) as [b'|] eqn:C; [|discriminate E]. rewrite (soc_cmp c x y x' y' b' H1 H2 C). exact E. }
  destruct v as [x|l], v' as [x'|l'], w as [y|k], w' as [y'|k']; cbn [socv truth]; intros H1 H2; try contradiction; eauto.
  - inversion H2 as [|? ? k1 k1' S T]; subst; auto. inversion T; subst; auto. apply K; auto.
  - inversion H1 as [|? ? k1 k1' S T]; subst; auto. inversion T; subst; auto. apply K; auto.
  - inversion H1 as [|? ? k1 k1' S T]; subst; auto; inversion T; subst; inversion H2 as [|? ? k2 k2' S2 T2]; subst; auto.
    all: inversion T2; subst; auto. apply K; auto.
Qed.
Lemma soc_run p : forall env env' us, socvs env env' -> run_arr PyFloat p env = Ret us ->
  exists us', run_arr NumPy p env' = Ret us' /\ socvs us us'.
Proof.
  induction p as [es|e p IH|c e1 e2 p IHp q IHq]; intros env env' us H E; cbn [run_arr] in *.
  - eapply soc_evs; eauto.
  - destruct (ev_arr PyFloat env e) as [v| |] eqn:V; try discriminate E. destruct (soc_ev env env' e H v V) as (v' & -> & S). cbn in E |- *.
    apply (IH (env ++ [v])); auto. apply Forall2_app; auto.
  - destruct (ev_arr PyFloat env e1) as [v| |] eqn:V; try discriminate E. destruct (soc_ev env env' e1 H v V) as (v' & -> & S).
    destruct (ev_arr PyFloat env e2) as [w| |] eqn:W; try discriminate E. destruct (soc_ev env env' e2 H w W) as (w' & -> & T).
    cbn in E |- *. destruct (truth c v w) as [b| |] eqn:B; try discriminate E. rewrite (soc_truth c v w v' w' b S T B). cbn in E |- *.
    destruct b; eauto.
Qed.
Lemma is_value_soc v : is_value v -> socv v v.
Proof.
  destruct v as [x|l]; cbn; intros H; [split; [left; reflexivity|exact H]|].
  induction l as [|x l IH]; constructor; [split; [left; reflexivity|apply H; left; reflexivity]|apply IH; intros; apply H; right; auto].
Qed.
