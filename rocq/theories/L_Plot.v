(** * Lemmas about the model of the figures. *)
From Coq Require Import Lra Lia Sorting.Sorted.
From Verif Require Import Fl M_Utils M_EM M_GM M_Fluid M_Emp M_QI M_Plot Spec Spec3 Spec6 Spec11 RealLemmas L_Lists L_QI.
Open Scope R_scope.

Lemma plot_ok xs ys : length xs = length ys -> mpl_plot xs ys = Ret (Curve xs ys).
Proof. intros H. unfold mpl_plot. rewrite (proj2 (Nat.eqb_eq _ _) H). reflexivity. Qed.
Lemma plot_inv xs ys a : mpl_plot xs ys = Ret a -> a = Curve xs ys /\ length xs = length ys.
Proof. unfold mpl_plot. destruct (Nat.eqb_spec (length xs) (length ys)); [|discriminate]. intros [= <-]. auto. Qed.
Lemma scatter_ok xs ys cs : length xs = length ys -> length xs = length cs -> mpl_scatter xs ys cs = Ret (Points xs ys cs).
Proof. intros H H'. unfold mpl_scatter. rewrite (proj2 (Nat.eqb_eq _ _) H), (proj2 (Nat.eqb_eq _ _) H'). reflexivity. Qed.
Lemma last_maps {A B} (f : A -> B) l d d' : l <> [] -> last (map f l) d = f (last l d').
Proof. induction l as [|x [|y l] IH]; [contradiction|reflexivity|]. intros _. change (last (map f (y :: l)) d = f (last (y :: l) d')). apply IH. discriminate. Qed.
Lemma map_seq_nth {A B} (g : A -> B) (l : list A) (h : nat -> B) d : (forall i, (i < length l)%nat -> h i = g (nth i l d)) -> map h (seq 0 (length l)) = map g l.
Proof.
  revert h. induction l as [|x l IH]; intros h H; [reflexivity|]. cbn [length seq map]. f_equal.
  - apply (H 0%nat). cbn; lia.
  - rewrite <- seq_shift, map_map. apply IH. intros i Hi. apply (H (S i)). cbn; lia.
Qed.

(** ** The template *)
Lemma rpt_eval (IP PS : R * R * R -> R -> R) rock sw K0 D0 Kb Db Khc Dhc : sw <> [] ->
  (forall r s, In r rock -> In s sw -> let '(kd, gd, p) := rock_fl r in QI_rpt_point kd gd K0 D0 Kb Db Khc Dhc p (Fin s) = Ret (Fin (IP r s), Fin (PS r s))) ->
  QI_plot_rpt (map rock_fl rock) K0 D0 Kb Db Khc Dhc (map Fin sw) =
  Ret (map (fun r => Curve (map (fun s => Fin (IP r s)) sw) (map (fun s => Fin (PS r s)) sw)) rock
       ++ [Curve (map (fun r => Fin (IP r (last sw 0))) rock) (map (fun r => Fin (PS r (last sw 0))) rock)]).
Proof.
  intros Hs H. unfold QI_plot_rpt. rewrite oseq_maps.
  rewrite (oseq_map _ (fun s => map (fun r => (Fin (IP r s), Fin (PS r s))) rock)).
  2:{ intros s Is. rewrite oseq_maps. apply oseq_map. intros r Ir. specialize (H r s Ir Is). destruct (rock_fl r) as ((kd & gd) & p). exact H. }
  cbn [call].
  assert (X : forall (A B : Type) (l : list A) (b b' : B), l <> [] -> match l with [] => b | _ => b' end = b') by (intros A B [|? ?] ? ?; [contradiction|reflexivity]).
  rewrite X by (destruct sw; [contradiction|discriminate]). clear X. do 2 f_equal.
  - rewrite map_length. apply (map_seq_nth _ _ _ (0, 0, 0)). intros i Hi.
    f_equal; rewrite !map_map; apply map_ext; intros s; rewrite map_map; cbn [fst snd].
    + rewrite (nth_indep _ Und (Fin (IP (0,0,0) s))) by (rewrite map_length; exact Hi). apply (map_nth (fun r => Fin (IP r s))).
    + rewrite (nth_indep _ Und (Fin (PS (0,0,0) s))) by (rewrite map_length; exact Hi). apply (map_nth (fun r => Fin (PS r s))).
  - f_equal. f_equal; rewrite !map_map; rewrite (last_maps _ _ _ 0) by exact Hs; rewrite map_map; reflexivity.
Qed.

(** ** The density map *)
Lemma norm2_fin (D : list (list R)) M : In M (concat D) -> (forall y, In y (concat D) -> y <= M) -> M <> 0 ->
  QI_normalize2 (map (map Fin) D) = Ret (map (map (fun d => Fin (d / M))) D).
Proof.
  intros I B N. unfold QI_normalize2. rewrite <- concat_map, (np_max_is _ M) by assumption. cbn [call]. f_equal. rewrite map_map. apply map_ext.
  intros row. rewrite map_map. apply map_ext. intros d. rewrite !fsub_fin, fdiv_fin, fsub_fin by exact N. apply f_equal. field. exact N.
Qed.
Lemma cut_fin (D : list (list R)) M : oseq (oseq QI_cut) (map (map (fun d => Fin (d / M))) D) = Ret (map (map (fun d => Fin (shown M d))) D).
Proof.
  rewrite oseq_maps. apply oseq_map. intros row _. rewrite oseq_maps. apply oseq_map. intros d _. unfold QI_cut, shown. rewrite fltb_fin.
  destruct (Rlt_dec (d / M) (1/10000)); [rewrite (Rltb_true _ _ r)|rewrite Rltb_false by lra]; reflexivity.
Qed.
Lemma T_map (n : nat) (D : list (list R)) (g : R -> R) : (forall row, In row D -> length row = n) ->
  np_T n (map (map (fun d => Fin (g d))) D) = map (fun j => map (fun row => Fin (g (nth j row 0))) D) (seq 0 n).
Proof.
  intros H. unfold np_T. apply map_ext_in. intros j Hj. apply in_seq in Hj. rewrite map_map. apply map_ext_in. intros row Hr.
  rewrite (nth_indep _ Und (Fin (g 0))) by (rewrite map_length, H by exact Hr; lia). apply (map_nth (fun d => Fin (g d))).
Qed.

(** ** Cement estimates on the object *)
Lemma fill_total seeds sl rows Vp : (length Vp <= length rows)%nat ->
  QI_fill seeds sl rows Vp = call (oseq (fun p : fl * list fl => QI_cem_sample seeds sl (snd p) (fst p)) (combine Vp rows))
    (fun cs => Ret (cs ++ repeat NaN (length rows - length Vp))).
Proof.
  revert rows. induction Vp as [|v Vp IH]; intros [|r rows] H; cbn [length] in H; try lia.
  - reflexivity.
  - cbn [QI_fill combine oseq call app length Nat.sub]. do 2 f_equal. induction rows as [|x rows IHr]; [reflexivity|].
    cbn [map length repeat]. f_equal. apply IHr. lia.
  - cbn [QI_fill combine oseq fst snd length Nat.sub]. destruct (QI_cem_sample seeds sl r v); cbn [call]; try reflexivity.
    rewrite IH by lia. destruct (oseq _ (combine Vp rows)); reflexivity.
Qed.
Lemma fill_long seeds sl rows v Vp : length rows = length Vp -> (exists cs, QI_fill seeds sl rows Vp = Ret cs) ->
  forall Vp', QI_fill seeds sl rows (Vp ++ v :: Vp') = Raise IndexError.
Proof.
  revert rows. induction Vp as [|w Vp IH]; intros [|r rows] H; cbn [length] in H; try lia; intros [cs E] Vp'.
  - reflexivity.
  - cbn [QI_fill app] in *. apply call_inv in E as (c & -> & E). cbn [call]. apply call_inv in E as (cs' & E & _). rewrite IH; eauto.
Qed.

(** ** Constant-cement lines *)
Lemma cst_ret m b K0 D0 G0 p phi_c Cn Kc Gc Db Kb scheme vsh Dsh Dqz Dc : b <> 1 -> 0 < Dsh -> 0 < Dqz -> 0 < Dc -> exists v w,
  QI_cst_vels m (Fin b) (Fin K0) D0 (Fin G0) (Fin p) (Fin phi_c) (Fin Cn) (Fin Kc) (Fin Gc) (Fin Db) (Fin Kb) scheme (Fin vsh) (Fin Dsh) (Fin Dqz) (Fin Dc) = Ret (v, w).
Proof.
  intros Nb P1 P2 P3. unfold QI_cst_vels.
  assert (E : ret2 (GM_constantcement NumPy (Fin b) (Fin K0) (Fin G0) (Fin Kc) (Fin Gc) (Fin p) (Fin phi_c) (Fin Cn) scheme)).
  { unfold GM_constantcement. destruct (cc_ret (Fin K0) (Fin G0) (Fin Kc) (Fin Gc) (Fin b) (Fin phi_c) (Fin Cn) scheme) as (a & c & -> & ? & ?); try apply ne_fin.
    cbn [call]. steps. do 2 eexists; (split; [reflexivity|split; ne]). }
  destruct E as (kd & gd & -> & N1 & N2). cbn [call]. rewrite den_fin by assumption. cbn [call].
  match goal with |- context [Fluid_vels NumPy kd gd _ (Fin ?D) _ _ _] => set (D1 := D); clearbody D1 end.
  assert (E : exists x y z, Fluid_vels NumPy kd gd (Fin K0) (Fin D1) (Fin Kb) (Fin Db) (Fin p) = Ret (x, y, z)).
  { unfold Fluid_vels. rewrite bind_ne by ne. destruct (Gassmann_ret kd gd (Fin K0) (Fin Kb) (Fin p)) as (k & g & -> & ? & ?); try assumption; try apply ne_fin.
    cbn [call]. rewrite !bind_ne by ne. eauto. }
  destruct E as (x & y & z & ->). cbn [call]. destruct (mask_ret p b x) as [_ _]. 
  unfold mask_gt. rewrite fltb_fin. destruct (Rltb b p); cbn [call]; eauto.
Qed.
Lemma oseq_app {A B} (f : A -> outcome B) l1 l2 r1 r2 : oseq f l1 = Ret r1 -> oseq f l2 = Ret r2 -> oseq f (l1 ++ l2) = Ret (r1 ++ r2).
Proof.
  intros E1 E2. revert r1 E1. induction l1 as [|x l1 IH]; cbn [oseq app]; intros r1 E1; [injection E1 as <-; exact E2|].
  apply call_inv in E1 as (y & -> & E1). apply call_inv in E1 as (r & E1 & E). injection E as <-. cbn [call]. rewrite (IH r E1). reflexivity.
Qed.
Lemma combine_app_short {A B} (l : list A) (r r' : list B) : length l = length r -> combine l (r ++ r') = combine l r.
Proof. revert r. induction l as [|x l IH]; intros [|y r] H; try discriminate; [destruct r'; reflexivity|]. cbn [app combine]. f_equal. apply IH. cbn in H. lia. Qed.
