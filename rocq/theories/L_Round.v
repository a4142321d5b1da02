(** * L_Round: floating-point runs converge to the exact ones (C81). *)
From Verif Require Import Fl M_Array M_Round Spec18.
Open Scope R_scope.

Lemma rabs_le x a : Rabs x <= a -> - a <= x <= a.
Proof. unfold Rabs; destruct Rcase_abs; lra. Qed.

(** ** Continuity of the operations *)
Definition cont1 (f : R -> R) (x : R) : Prop :=
  forall eps, 0 < eps -> exists d, 0 < d /\ forall x', Rabs (x' - x) <= d -> Rabs (f x' - f x) <= eps.
Definition cont2 (f : R -> R -> R) (x y : R) : Prop :=
  forall eps, 0 < eps -> exists d, 0 < d /\
    forall x' y', Rabs (x' - x) <= d -> Rabs (y' - y) <= d -> Rabs (f x' y' - f x y) <= eps.
Lemma cont1_pt f x : continuity_pt f x -> cont1 f x.
Proof.
  intros H eps He. destruct (H eps He) as (d & Hd & K). exists (d / 2); split; [lra|].
  intros x' Hx. destruct (Req_dec x' x) as [->|N].
  - unfold Rminus; rewrite Rplus_opp_r, Rabs_R0; lra.
  - assert (Q : Rabs (f x' - f x) < eps); [|lra].
    apply (K x'); split.
    + split; [exact I|]. congruence.
    + simpl. unfold R_dist. lra.
Qed.
Lemma cont2_comp g f x y : cont2 f x y -> cont1 g (f x y) -> cont2 (fun a b => g (f a b)) x y.
Proof.
  intros Hf Hg eps He. destruct (Hg eps He) as (d & Hd & K). destruct (Hf d Hd) as (d' & Hd' & K').
  exists d'; split; auto.
Qed.
Lemma cont2_pre f g h x y : cont2 f (g x) (h y) -> cont1 g x -> cont1 h y -> cont2 (fun a b => f (g a) (h b)) x y.
Proof.
  intros Hf Hg Hh eps He. destruct (Hf eps He) as (d & Hd & K).
  destruct (Hg d Hd) as (d1 & H1 & K1). destruct (Hh d Hd) as (d2 & H2 & K2).
  exists (Rmin d1 d2); split; [apply Rmin_glb_lt; auto|].
  intros x' y' Hx Hy. apply K; [apply K1|apply K2]; eapply Rle_trans; eauto; [apply Rmin_l|apply Rmin_r].
Qed.
Lemma cont1_id x : cont1 (fun a => a) x.
Proof. intros eps He; exists eps; auto. Qed.
Lemma cont2_add x y : cont2 Rplus x y.
Proof.
  intros eps He. exists (eps / 2); split; [lra|]. intros x' y' Hx Hy.
  replace (x' + y' - (x + y)) with ((x' - x) + (y' - y)) by ring.
  eapply Rle_trans; [apply Rabs_triang|lra].
Qed.
Lemma cont2_sub x y : cont2 Rminus x y.
Proof.
  intros eps He. exists (eps / 2); split; [lra|]. intros x' y' Hx Hy.
  replace (x' - y' - (x - y)) with ((x' - x) + - (y' - y)) by ring.
  eapply Rle_trans; [apply Rabs_triang|]. rewrite Rabs_Ropp; lra.
Qed.
Lemma cont2_mul x y : cont2 Rmult x y.
Proof.
  intros eps He. pose proof (Rabs_pos x) as Px. pose proof (Rabs_pos y) as Py.
  set (s := Rabs x + Rabs y + 1). assert (Hs : 0 < s) by (unfold s; lra).
  exists (Rmin 1 (eps / s)); split.
  { apply Rmin_glb_lt; [lra|]. apply Rdiv_lt_0_compat; auto. }
  intros x' y' Hx Hy. set (d := Rmin 1 (eps / s)) in *.
  assert (D1 : d <= 1) by apply Rmin_l. assert (D2 : d <= eps / s) by apply Rmin_r.
  replace (x' * y' - x * y) with ((x' - x) * y + x * (y' - y) + (x' - x) * (y' - y)) by ring.
  eapply Rle_trans; [apply Rabs_triang|].
  eapply Rle_trans; [apply Rplus_le_compat_r, Rabs_triang|]. rewrite !Rabs_mult.
  pose proof (Rabs_pos (x' - x)) as A1. pose proof (Rabs_pos (y' - y)) as A2.
  apply Rle_trans with (d * Rabs y + Rabs x * d + d * 1).
  - apply Rplus_le_compat; [apply Rplus_le_compat|].
    + apply Rmult_le_compat_r; auto.
    + apply Rmult_le_compat_l; auto.
    + apply Rmult_le_compat; auto; lra.
  - replace (d * Rabs y + Rabs x * d + d * 1) with (d * s) by (unfold s; ring).
    apply Rle_trans with (eps / s * s); [apply Rmult_le_compat_r; lra|].
    right; field; lra.
Qed.
Lemma cont2_max x y : cont2 Rmax x y.
Proof.
  intros eps He. exists eps; split; auto. intros x' y'. unfold Rabs, Rmax.
  repeat destruct Rcase_abs; repeat destruct Rle_dec; lra.
Qed.
Lemma cont1_inv x : x <> 0 -> cont1 Rinv x.
Proof.
  intros H. apply cont1_pt. apply (continuity_pt_inv (fun a => a)); auto.
  apply derivable_continuous_pt, derivable_pt_id.
Qed.
Lemma cont1_ln x : 0 < x -> cont1 ln x.
Proof. intros H; apply cont1_pt, derivable_continuous_pt. exists (/ x). apply derivable_pt_lim_ln; auto. Qed.
Lemma cont1_exp x : cont1 exp x.
Proof. apply cont1_pt, derivable_continuous_pt, derivable_pt_exp. Qed.
Lemma cont2_div x y : y <> 0 -> cont2 Rdiv x y.
Proof.
  intros H. apply (cont2_pre Rmult (fun a => a) Rinv x y (cont2_mul _ _) (cont1_id x) (cont1_inv y H)).
Qed.
Lemma cont2_pow x y : 0 < x -> cont2 Rpower x y.
Proof.
  intros H. unfold Rpower.
  apply (cont2_comp exp (fun a b => b * ln a) x y); [|apply cont1_exp].
  intros eps He. destruct (cont2_mul y (ln x) eps He) as (d & Hd & K).
  destruct (cont1_ln x H d Hd) as (d1 & H1 & K1).
  exists (Rmin d1 d); split; [apply Rmin_glb_lt; auto|]. intros x' y' Hx Hy.
  apply K; [|apply K1]; eapply Rle_trans; eauto; [apply Rmin_r|apply Rmin_l].
Qed.
Lemma cont1_def (P : R -> Prop) f x d : 0 < d -> (forall x', Rabs (x' - x) <= d -> P x') -> cont1 f x ->
  forall eps, 0 < eps -> exists d, 0 < d /\ forall x', Rabs (x' - x) <= d -> P x' /\ Rabs (f x' - f x) <= eps.
Proof.
  intros Hd K C eps He. destruct (C eps He) as (d' & Hd' & K'). exists (Rmin d d'); split; [apply Rmin_glb_lt; auto|].
  intros x' Hx; split; [apply K|apply K']; eapply Rle_trans; eauto; [apply Rmin_l|apply Rmin_r].
Qed.
Lemma cont_op1 o x : inside1 o x -> cont1 (rsem1 o) x.
Proof.
  intros H; destruct o; simpl in *; apply cont1_pt; try (apply derivable_continuous_pt).
  - apply derivable_pt_opp, derivable_pt_id.
  - apply derivable_pt_sqrt; auto.
  - apply derivable_pt_exp.
  - exists (/ x). apply derivable_pt_lim_ln; auto.
  - apply derivable_pt_sin.
  - apply derivable_pt_cos.
  - apply (derivable_pt_div sin cos); [apply derivable_pt_sin|apply derivable_pt_cos|auto].
  - apply derivable_pt_asin; auto.
  - apply derivable_pt_acos; auto.
  - apply derivable_pt_atan.
  - apply derivable_pt_cosh.
  - apply derivable_pt_mult; [apply derivable_pt_mult; [apply derivable_pt_id|]|]; apply derivable_pt_const.
  - exists (INR n * x ^ pred n). apply derivable_pt_lim_pow.
Qed.

Lemma near_def1 o x : inside1 o x -> exists d, 0 < d /\ forall x', Rabs (x' - x) <= d -> def1 o x'.
Proof.
  assert (D : forall x, exists d, 0 < d /\ forall x', Rabs (x' - x) <= d -> True) by (intros; exists 1; split; auto; lra).
  intros H; destruct o; simpl in *; try apply D.
  - exists (x / 2); split; [lra|]. intros x' Hx; apply rabs_le in Hx; lra.
  - exists (x / 2); split; [lra|]. intros x' Hx; apply rabs_le in Hx; lra.
  - destruct (cont1_pt cos x) with (eps := Rabs (cos x) / 2) as (d & Hd & K).
    { apply derivable_continuous_pt, derivable_pt_cos. }
    { pose proof (Rabs_pos_lt _ H); lra. }
    exists d; split; auto. intros x' Hx E. specialize (K x' Hx). rewrite E in K.
    pose proof (Rabs_pos_lt _ H). unfold Rminus in K; rewrite Rplus_0_l, Rabs_Ropp in K; lra.
  - exists (Rmin (x + 1) (1 - x)); split; [apply Rmin_glb_lt; lra|]. intros x' Hx; apply rabs_le in Hx.
    pose proof (Rmin_l (x + 1) (1 - x)). pose proof (Rmin_r (x + 1) (1 - x)). lra.
  - exists (Rmin (x + 1) (1 - x)); split; [apply Rmin_glb_lt; lra|]. intros x' Hx; apply rabs_le in Hx.
    pose proof (Rmin_l (x + 1) (1 - x)). pose proof (Rmin_r (x + 1) (1 - x)). lra.
Qed.
Lemma cont_op2 o x y : inside2 o x y -> cont2 (rsem2 o) x y.
Proof.
  intros H; destruct o; simpl in *;
  [apply cont2_add|apply cont2_sub|apply cont2_mul|apply cont2_div|apply cont2_div|apply cont2_pow|apply cont2_pow|apply cont2_max]; auto.
Qed.
Lemma near_def2 o x y : inside2 o x y ->
  exists d, 0 < d /\ forall x' y', Rabs (x' - x) <= d -> Rabs (y' - y) <= d -> def2 o x' y'.
Proof.
  assert (D : exists d, 0 < d /\ forall x' y' : R, Rabs (x' - x) <= d -> Rabs (y' - y) <= d -> True)
    by (exists 1; split; auto; lra).
  assert (Z : y <> 0 -> exists d, 0 < d /\ forall x' y' : R, Rabs (x' - x) <= d -> Rabs (y' - y) <= d -> y' <> 0).
  { intros H. pose proof (Rabs_pos_lt _ H). exists (Rabs y / 2); split; [lra|]. intros x' y' _ Hy ->.
    unfold Rminus in Hy; rewrite Rplus_0_l, Rabs_Ropp in Hy; lra. }
  assert (P : 0 < x -> exists d, 0 < d /\ forall x' y' : R, Rabs (x' - x) <= d -> Rabs (y' - y) <= d -> 0 < x').
  { intros H. exists (x / 2); split; [lra|]. intros x' y' Hx _. apply rabs_le in Hx; lra. }
  intros H; destruct o; simpl in *; auto.
Qed.

(** A relative error of u is a small absolute error. *)
Lemma near_close z eps : 0 < eps -> exists d, 0 < d /\
  forall u z' y, 0 <= u <= d -> Rabs (z' - z) <= d -> near u z' y -> Rabs (y - z) <= eps.
Proof.
  intros He. pose proof (Rabs_pos z) as Pz. set (s := Rabs z + 2).
  exists (Rmin 1 (eps / s)). assert (Hs : 0 < s) by (unfold s; lra). split.
  { apply Rmin_glb_lt; [lra|]. apply Rdiv_lt_0_compat; auto. }
  intros u z' y Hu Hz Hn. set (d := Rmin 1 (eps / s)) in *.
  assert (D1 : d <= 1) by apply Rmin_l. assert (D2 : d <= eps / s) by apply Rmin_r.
  unfold near in Hn. replace (y - z) with ((y - z') + (z' - z)) by ring.
  eapply Rle_trans; [apply Rabs_triang|].
  assert (Hz' : Rabs z' <= Rabs z + 1).
  { replace z' with (z + (z' - z)) by ring. eapply Rle_trans; [apply Rabs_triang|lra]. }
  assert (u * Rabs z' <= d * (Rabs z + 1)) by (apply Rmult_le_compat; try lra; apply Rabs_pos).
  assert (d * s <= eps).
  { apply Rle_trans with (eps / s * s); [apply Rmult_le_compat_r; lra|]. right; field; lra. }
  unfold s in *. nra.
Qed.
Lemma near_close_self z eps : 0 < eps -> exists d, 0 < d /\ forall u y, 0 <= u <= d -> near u z y -> Rabs (y - z) <= eps.
Proof.
  intros He. destruct (near_close z eps He) as (d & Hd & K). exists d; split; auto.
  intros u y Hu Hn. apply (K u z y); auto. unfold Rminus; rewrite Rplus_opp_r, Rabs_R0; lra.
Qed.
Lemma round1_close u o x y z d : Rabs (rsem1 o x - z) <= d -> round1 u o x y -> (near u (rsem1 o x) y \/ Rabs (y - z) <= d).
Proof. destruct o; simpl; auto. intros H ->; auto. Qed.
Lemma round2_close u o x1 x2 y z d : Rabs (rsem2 o x1 x2 - z) <= d -> round2 u o x1 x2 y ->
  (near u (rsem2 o x1 x2) y \/ Rabs (y - z) <= d).
Proof. destruct o; simpl; auto. intros H ->; auto. Qed.

Lemma Rle_min3 a b c d : d <= Rmin a (Rmin b c) -> d <= a /\ d <= b /\ d <= c.
Proof.
  intros H. pose proof (Rmin_l a (Rmin b c)). pose proof (Rmin_r a (Rmin b c)).
  pose proof (Rmin_l b c). pose proof (Rmin_r b c). repeat split; lra.
Qed.
Lemma min3_pos a b c : 0 < a -> 0 < b -> 0 < c -> 0 < Rmin a (Rmin b c).
Proof. intros; repeat apply Rmin_glb_lt; auto. Qed.
Lemma close_le d d' xs ys : d <= d' -> close d xs ys -> close d' xs ys.
Proof. intros H; induction 1; constructor; auto; lra. Qed.
Lemma close_nth d xs ys n : 0 < d -> close d xs ys -> Rabs (nth n ys 0 - nth n xs 0) <= d.
Proof.
  intros Hd H; revert n; induction H; intros [|n]; simpl; auto;
  unfold Rminus; rewrite Rplus_opp_r, Rabs_R0; lra.
Qed.

Lemma op1_near o x : inside1 o x -> forall eps, 0 < eps -> exists d, 0 < d /\
  forall u x' y, 0 <= u <= d -> Rabs (x' - x) <= d -> def1 o x' /\ (round1 u o x' y -> Rabs (y - rsem1 o x) <= eps).
Proof.
  intros H eps He. destruct (near_close (rsem1 o x) eps He) as (d1 & Hd1 & K1).
  destruct (near_def1 o x H) as (d2 & Hd2 & K2).
  destruct (cont_op1 o x H (Rmin d1 eps)) as (d3 & Hd3 & K3); [apply Rmin_glb_lt; auto|].
  exists (Rmin d1 (Rmin d2 d3)); split; [apply min3_pos; auto|].
  intros u x' y (Hu0 & Hu) Hx. apply Rle_min3 in Hu, Hx. split; [apply K2; lra|].
  intros R. assert (C : Rabs (rsem1 o x' - rsem1 o x) <= Rmin d1 eps) by (apply K3; lra).
  pose proof (Rmin_l d1 eps). pose proof (Rmin_r d1 eps).
  destruct (round1_close _ _ _ _ _ _ C R) as [N|N]; [|lra].
  apply (K1 u (rsem1 o x')); auto; lra.
Qed.
Lemma op2_near o x1 x2 : inside2 o x1 x2 -> forall eps, 0 < eps -> exists d, 0 < d /\
  forall u x1' x2' y, 0 <= u <= d -> Rabs (x1' - x1) <= d -> Rabs (x2' - x2) <= d ->
  def2 o x1' x2' /\ (round2 u o x1' x2' y -> Rabs (y - rsem2 o x1 x2) <= eps).
Proof.
  intros H eps He. destruct (near_close (rsem2 o x1 x2) eps He) as (d1 & Hd1 & K1).
  destruct (near_def2 o x1 x2 H) as (d2 & Hd2 & K2).
  destruct (cont_op2 o x1 x2 H (Rmin d1 eps)) as (d3 & Hd3 & K3); [apply Rmin_glb_lt; auto|].
  exists (Rmin d1 (Rmin d2 d3)); split; [apply min3_pos; auto|].
  intros u x1' x2' y (Hu0 & Hu) Hx Hy. apply Rle_min3 in Hu, Hx, Hy. split; [apply K2; lra|].
  intros R. assert (C : Rabs (rsem2 o x1' x2' - rsem2 o x1 x2) <= Rmin d1 eps) by (apply K3; lra).
  pose proof (Rmin_l d1 eps). pose proof (Rmin_r d1 eps).
  destruct (round2_close _ _ _ _ _ _ _ C R) as [N|N]; [|lra].
  apply (K1 u (rsem2 o x1' x2')); auto; lra.
Qed.

(** ** Expressions *)
Lemma expr_close e : forall xs, inside_expr xs e -> forall eps, 0 < eps -> exists d, 0 < d /\
  forall u xs' y, 0 <= u <= d -> close d xs xs' -> fev u xs' e y -> exists y', y = Some y' /\ Rabs (y' - rval xs e) <= eps.
Proof.
  induction e as [n|r|o e IH|o e1 IH1 e2 IH2]; intros xs Hin eps He; simpl in Hin.
  - exists eps; split; auto. intros u xs' y Hu Hc ->. eexists; split; [reflexivity|]. simpl. apply close_nth; auto.
  - destruct (near_close_self r eps He) as (d & Hd & K). exists d; split; auto.
    intros u xs' y Hu Hc (y' & -> & (Hn & _)). eexists; split; [reflexivity|]. simpl; eauto.
  - destruct Hin as (Hin & H1). destruct (op1_near o _ H1 eps He) as (d1 & Hd1 & K1).
    destruct (IH xs Hin d1 Hd1) as (d2 & Hd2 & K2).
    exists (Rmin d1 (Rmin d2 d2)); split; [apply min3_pos; auto|].
    intros u xs' y (Hu0 & Hu) Hc (x & Hx & Hy). apply Rle_min3 in Hu.
    pose proof (Rle_min3 d1 d2 d2 _ (Rle_refl _)) as Hm.
    destruct (K2 u xs' x) as (x' & -> & Cx); [lra|eapply close_le; [|eauto]; lra|auto|].
    destruct Hy as [(_ & y' & -> & Hr)|(N & _)].
    + exists y'; split; auto. apply (K1 u x' y'); auto; lra.
    + destruct N. apply (K1 u x' 0); auto; lra.
  - destruct Hin as (Hi1 & Hi2 & H2). destruct (op2_near o _ _ H2 eps He) as (d1 & Hd1 & K1).
    destruct (IH1 xs Hi1 d1 Hd1) as (d2 & Hd2 & K2). destruct (IH2 xs Hi2 d1 Hd1) as (d3 & Hd3 & K3).
    exists (Rmin d1 (Rmin d2 d3)); split; [apply min3_pos; auto|].
    intros u xs' y (Hu0 & Hu) Hc (x1 & x2 & Hx1 & Hx2 & Hy). apply Rle_min3 in Hu.
    pose proof (Rle_min3 d1 d2 d3 _ (Rle_refl _)) as Hm.
    destruct (K2 u xs' x1) as (x1' & -> & C1); [lra|eapply close_le; [|eauto]; lra|auto|].
    destruct (K3 u xs' x2) as (x2' & -> & C2); [lra|eapply close_le; [|eauto]; lra|auto|].
    destruct Hy as [(_ & y' & -> & Hr)|(N & _)].
    + exists y'; split; auto. apply (K1 u x1' x2' y'); auto; lra.
    + destruct N. apply (K1 u x1' x2' 0); auto; lra.
Qed.
Lemma exprs_close es : forall xs, (forall e, In e es -> inside_expr xs e) -> forall eps, 0 < eps -> exists d, 0 < d /\
  forall u xs' ys, 0 <= u <= d -> close d xs xs' -> fevs u xs' es ys ->
  exists ys', ys = Some ys' /\ close eps (map (rval xs) es) ys'.
Proof.
  induction es as [|e es IH]; intros xs Hin eps He.
  - exists 1; split; [lra|]. intros u xs' ys _ _ ->. exists []; split; auto. constructor.
  - destruct (expr_close e xs (Hin e (or_introl eq_refl)) eps He) as (d1 & Hd1 & K1).
    destruct (IH xs (fun e' H => Hin e' (or_intror H)) eps He) as (d2 & Hd2 & K2).
    exists (Rmin d1 d2); split; [apply Rmin_glb_lt; auto|].
    intros u xs' ys (Hu0 & Hu) Hc (y & z & Hy & Hz & ->).
    pose proof (Rmin_l d1 d2). pose proof (Rmin_r d1 d2).
    destruct (K1 u xs' y) as (y' & -> & C1); [lra|eapply close_le; [|eauto]; lra|auto|].
    destruct (K2 u xs' z) as (z' & -> & C2); [lra|eapply close_le; [|eauto]; lra|auto|].
    eexists; split; [reflexivity|]. simpl; constructor; auto.
Qed.
(** A test of two different numbers is not changed by small errors. *)
Lemma cmp_close c x y : x <> y -> exists d, 0 < d /\
  forall x' y', Rabs (x' - x) <= d -> Rabs (y' - y) <= d -> rcmpb c x' y' = rcmpb c x y.
Proof.
  intros H. exists (Rabs (x - y) / 3).
  assert (P : 0 < Rabs (x - y)) by (apply Rabs_pos_lt; lra). split; [lra|].
  intros x' y' Hx Hy. apply rabs_le in Hx, Hy.
  assert (Q : (x < y /\ x' < y') \/ (y < x /\ y' < x')).
  { destruct (Rtotal_order x y) as [L|[E|L]]; [left|contradiction|right]; split; auto.
    - rewrite Rabs_left in Hx, Hy by lra; lra.
    - rewrite Rabs_right in Hx, Hy by lra; lra. }
  destruct c; simpl; unfold Rltb, Rleb, Reqb; repeat destruct Rlt_dec; repeat destruct Rle_dec; repeat destruct Req_EM_T;
  auto; lra.
Qed.
Lemma close_snoc d xs xs' x x' : close d xs xs' -> Rabs (x' - x) <= d -> close d (xs ++ [x]) (xs' ++ [x']).
Proof. intros H K. apply Forall2_app; auto. Qed.

(** ** Programs *)
Fixpoint rrun (p : prog) (xs : list R) : list R :=
  match p with
  | PRet es => map (rval xs) es
  | PLet e p => rrun p (xs ++ [rval xs e])
  | PIf c e1 e2 p q => if rcmpb c (rval xs e1) (rval xs e2) then rrun p xs else rrun q xs
  end.
Lemma prog_close p : forall xs, inside p xs -> forall eps, 0 < eps -> exists d, 0 < d /\
  forall u xs' ys, 0 <= u <= d -> close d xs xs' -> fprog u p xs' ys ->
  exists ys', ys = Some ys' /\ close eps (rrun p xs) ys'.
Proof.
  induction p as [es|e p IH|c e1 e2 p IHp q IHq]; intros xs Hin eps He.
  - apply exprs_close; auto.
  - destruct Hin as (Hi & Hp). destruct (IH _ Hp eps He) as (d1 & Hd1 & K1).
    destruct (expr_close e xs Hi d1 Hd1) as (d2 & Hd2 & K2).
    exists (Rmin d1 d2); split; [apply Rmin_glb_lt; auto|].
    intros u xs' ys (Hu0 & Hu) Hc (x & Hx & Hy).
    pose proof (Rmin_l d1 d2). pose proof (Rmin_r d1 d2).
    destruct (K2 u xs' x) as (x' & -> & C1); [lra|eapply close_le; [|eauto]; lra|auto|].
    apply (K1 u (xs' ++ [x']) ys); auto; [lra|]. apply close_snoc; auto. eapply close_le; [|eauto]; lra.
  - destruct Hin as (H1 & H2 & Hne & Hb).
    destruct (cmp_close c _ _ Hne) as (d1 & Hd1 & K1).
    destruct (expr_close e1 xs H1 d1 Hd1) as (d2 & Hd2 & K2).
    destruct (expr_close e2 xs H2 d1 Hd1) as (d3 & Hd3 & K3).
    simpl. destruct (rcmpb c (rval xs e1) (rval xs e2)) eqn:B.
    + destruct (IHp xs Hb eps He) as (d4 & Hd4 & K4).
      exists (Rmin d4 (Rmin d2 d3)); split; [apply min3_pos; auto|].
      intros u xs' ys (Hu0 & Hu) Hc (x1 & x2 & Hx1 & Hx2 & Hy). apply Rle_min3 in Hu.
      pose proof (Rle_min3 d4 d2 d3 _ (Rle_refl _)) as Hm.
      destruct (K2 u xs' x1) as (x1' & -> & C1); [lra|eapply close_le; [|eauto]; lra|auto|].
      destruct (K3 u xs' x2) as (x2' & -> & C2); [lra|eapply close_le; [|eauto]; lra|auto|].
      rewrite (K1 _ _ C1 C2) in Hy.
      apply (K4 u xs' ys); auto; [lra|eapply close_le; [|eauto]; lra].
    + destruct (IHq xs Hb eps He) as (d4 & Hd4 & K4).
      exists (Rmin d4 (Rmin d2 d3)); split; [apply min3_pos; auto|].
      intros u xs' ys (Hu0 & Hu) Hc (x1 & x2 & Hx1 & Hx2 & Hy). apply Rle_min3 in Hu.
      pose proof (Rle_min3 d4 d2 d3 _ (Rle_refl _)) as Hm.
      destruct (K2 u xs' x1) as (x1' & -> & C1); [lra|eapply close_le; [|eauto]; lra|auto|].
      destruct (K3 u xs' x2) as (x2' & -> & C2); [lra|eapply close_le; [|eauto]; lra|auto|].
      rewrite (K1 _ _ C1 C2) in Hy.
      apply (K4 u xs' ys); auto; [lra|eapply close_le; [|eauto]; lra].
Qed.

(** ** The exact run *)
Lemma sem1_fin o x : inside1 o x -> sem1 o (Fin x) = Fin (rsem1 o x).
Proof.
  intros H; destruct o; simpl in *; auto.
  - destruct Rle_dec; auto; lra.
  - destruct Rlt_dec; auto; lra.
  - destruct Req_EM_T; auto; contradiction.
  - destruct Rle_dec; [destruct Rle_dec; auto|]; lra.
  - destruct Rle_dec; [destruct Rle_dec; auto|]; lra.
Qed.
Lemma sem2_fin m o x y : inside2 o x y -> sem2 m o (Fin x) (Fin y) = Fin (rsem2 o x y).
Proof.
  intros H; destruct o; simpl in *; auto; try (destruct Req_EM_T; auto; contradiction); destruct Rlt_dec; auto; lra.
Qed.
Lemma ev_fin m e : forall xs, inside_expr xs e -> ev m (map Fin xs) e = Fin (rval xs e).
Proof.
  induction e as [n|r|o e IH|o e1 IH1 e2 IH2]; intros xs H; simpl in *.
  - rewrite (nth_indep _ Und (Fin 0)) by (rewrite map_length; auto). apply map_nth.
  - reflexivity.
  - destruct H; rewrite IH by auto. apply sem1_fin; auto.
  - destruct H as (? & ? & ?); rewrite IH1, IH2 by auto. apply sem2_fin; auto.
Qed.
Lemma rets_fin m es : forall xs, (forall e, In e es -> inside_expr xs e) ->
  rets (map (ev m (map Fin xs)) es) = Ret (map Fin (map (rval xs) es)).
Proof.
  induction es as [|e es IH]; intros xs H; simpl; auto.
  rewrite ev_fin by (apply H; left; auto). simpl. rewrite IH by (intros; apply H; right; auto). reflexivity.
Qed.
Lemma run_fin m p : forall xs, inside p xs -> run m p (map Fin xs) = Ret (map Fin (rrun p xs)).
Proof.
  induction p as [es|e p IH|c e1 e2 p IHp q IHq]; intros xs H; simpl in *.
  - apply rets_fin; auto.
  - destruct H as (H1 & H2). rewrite ev_fin by auto. simpl.
    rewrite <- IH by auto. rewrite map_app; reflexivity.
  - destruct H as (H1 & H2 & _ & H). rewrite !ev_fin by auto.
    assert (E : semc c (Fin (rval xs e1)) (Fin (rval xs e2)) = Some (rcmpb c (rval xs e1) (rval xs e2)))
      by (destruct c; reflexivity).
    rewrite E. destruct rcmpb; auto.
Qed.

(** ** An exact run is a possible run *)
Lemma near_refl u x : 0 <= u -> near u x x.
Proof. intros H. unfold near, Rminus. rewrite Rplus_opp_r, Rabs_R0. apply Rmult_le_pos; auto using Rabs_pos. Qed.
Lemma inside1_def o x : inside1 o x -> def1 o x.
Proof. destruct o; simpl; auto; lra. Qed.
Lemma inside2_def o x y : inside2 o x y -> def2 o x y.
Proof. destruct o; simpl; auto. Qed.
Lemma round1_refl u o x : 0 <= u -> round1 u o x (rsem1 o x).
Proof. intros H; destruct o; simpl; auto using near_refl. Qed.
Lemma round2_refl u o x y : 0 <= u -> round2 u o x y (rsem2 o x y).
Proof. intros H; destruct o; simpl; auto using near_refl. Qed.
Lemma fev_exact u e : 0 <= u -> forall xs, inside_expr xs e -> fev u xs e (Some (rval xs e)).
Proof.
  intros Hu. induction e as [n|r|o e IH|o e1 IH1 e2 IH2]; intros xs H; simpl in *.
  - reflexivity.
  - exists r; split; auto. split; auto using near_refl.
  - destruct H as (H & H1). eexists; split; [apply IH; auto|]. left; split; [apply inside1_def; auto|].
    eexists; split; [reflexivity|apply round1_refl; auto].
  - destruct H as (H & H' & H1). do 2 eexists; split; [apply IH1; auto|]. split; [apply IH2; auto|].
    left; split; [apply inside2_def; auto|]. eexists; split; [reflexivity|apply round2_refl; auto].
Qed.
Lemma fevs_exact u es : 0 <= u -> forall xs, (forall e, In e es -> inside_expr xs e) -> fevs u xs es (Some (map (rval xs) es)).
Proof.
  intros Hu. induction es as [|e es IH]; intros xs H; simpl; auto.
  exists (Some (rval xs e)), (Some (map (rval xs) es)). split; [apply fev_exact; auto; apply H; left; auto|].
  split; [apply IH; intros; apply H; right; auto|reflexivity].
Qed.
Lemma fprog_exact u p : 0 <= u -> forall xs, inside p xs -> fprog u p xs (Some (rrun p xs)).
Proof.
  intros Hu. induction p as [es|e p IH|c e1 e2 p IHp q IHq]; intros xs H; simpl in *.
  - apply fevs_exact; auto.
  - destruct H as (H1 & H2). eexists; split; [apply fev_exact; auto|]. apply IH; auto.
  - destruct H as (H1 & H2 & _ & H). do 2 eexists; split; [apply fev_exact; auto|]. split; [apply fev_exact; auto|].
    simpl. destruct rcmpb; auto.
Qed.
Lemma close_refl d xs : 0 <= d -> close d xs xs.
Proof.
  intros H; induction xs as [|x xs IH]; constructor; auto.
  unfold Rminus; rewrite Rplus_opp_r, Rabs_R0; auto.
Qed.
Lemma close_eq xs ys : (forall eps, 0 < eps -> close eps xs ys) -> xs = ys.
Proof.
  intros H. assert (L : close 1 xs ys) by (apply H; lra). revert ys H L.
  induction xs as [|x xs IH]; intros ys H L; inversion L; subst; auto.
  f_equal.
  - destruct (Req_dec x y) as [|N]; auto. exfalso.
    assert (P : 0 < Rabs (y - x)) by (apply Rabs_pos_lt; lra).
    specialize (H (Rabs (y - x) / 2) ltac:(lra)). inversion H; subst. lra.
  - apply IH; auto. intros eps He. specialize (H eps He). inversion H; auto.
Qed.
