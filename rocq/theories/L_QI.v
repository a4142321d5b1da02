(** * Lemmas about the model of QI.py. *)
From Coq Require Import Lra Lia.
From Verif Require Import Fl M_Utils M_EM M_GM M_Fluid M_Emp M_QI Spec Spec3 Spec6 RealLemmas L_Lists L_Utils L_EM1 L_GM1 L_GM2 L_Fluid1 L_Emp.
Open Scope R_scope.

(** ** Sequencing *)
Lemma bind_inv {B} x (k : fl -> outcome B) r : bind x k = Ret r -> k x = Ret r.
Proof. destruct x; cbn; congruence. Qed.
Lemma call_inv {A B} (x : outcome A) (k : A -> outcome B) r : call x k = Ret r -> exists a, x = Ret a /\ k a = Ret r.
Proof. destruct x; cbn; try discriminate. eauto. Qed.
Lemma Forall2_len {A B} (P : A -> B -> Prop) l r : Forall2 P l r -> length l = length r.
Proof. induction 1; cbn; congruence. Qed.
Lemma ret_pair {A B} (a c : A) (b d : B) : Ret (a, b) = Ret (c, d) -> a = c /\ b = d.
Proof. intros [= -> ->]. auto. Qed.
Lemma oseq_map {A B} (f : A -> outcome B) (g : A -> B) l : (forall x, In x l -> f x = Ret (g x)) -> oseq f l = Ret (map g l).
Proof.
  induction l as [|x l IH]; intros H; [reflexivity|]. cbn [oseq map]. rewrite H by (left; reflexivity). cbn [call].
  rewrite IH by (intros; apply H; right; assumption). reflexivity.
Qed.
Lemma oseq_inv {A B} (f : A -> outcome B) l r : oseq f l = Ret r -> Forall2 (fun x y => f x = Ret y) l r.
Proof.
  revert r. induction l as [|x l IH]; cbn [oseq]; intros r.
  - intros [= <-]. constructor.
  - intros H. apply call_inv in H as (y & E & H). apply call_inv in H as (r' & E' & [= <-]). constructor; auto.
Qed.
Lemma oseq_raise {A B} (f : A -> outcome B) l1 x l2 e : (forall y, In y l1 -> exists b, f y = Ret b) -> f x = Raise e ->
  oseq f (l1 ++ x :: l2) = Raise e.
Proof.
  intros H E. induction l1 as [|y l1 IH]; cbn [app oseq].
  - rewrite E. reflexivity.
  - destruct (H y) as [b ->]; [left; reflexivity|]. cbn [call]. rewrite IH; [reflexivity|]. intros; apply H; right; assumption.
Qed.

(** ** Maximum and minimum *)
Lemma fold_max l x : fold_left fmax2 (map Fin l) (Fin x) = Fin (fold_left Rmax l x).
Proof. revert x. induction l as [|y l IH]; intros x; [reflexivity|]. cbn [map fold_left fmax2]. apply IH. Qed.
Lemma fold_min l x : fold_left fmin2 (map Fin l) (Fin x) = Fin (fold_left Rmin l x).
Proof. revert x. induction l as [|y l IH]; intros x; [reflexivity|]. cbn [map fold_left fmin2]. apply IH. Qed.
Lemma fold_Rmax l x : (fold_left Rmax l x = x \/ In (fold_left Rmax l x) l) /\ forall y, x = y \/ In y l -> y <= fold_left Rmax l x.
Proof.
  revert x. induction l as [|z l IH]; intros x; cbn [fold_left].
  - split; [auto|]. intros y [<-|[]]. lra.
  - destruct (IH (Rmax x z)) as [A B]. split.
    + destruct A as [->|A]; [|right; right; exact A]. unfold Rmax. destruct (Rle_dec x z); [right; left|left]; reflexivity.
    + assert (C := B (Rmax x z) (or_introl eq_refl)). assert (x <= Rmax x z) by apply Rmax_l. assert (z <= Rmax x z) by apply Rmax_r.
      intros y [<-|[<-|Hy]]; [lra|lra|apply B; right; exact Hy].
Qed.
Lemma fold_Rmin l x : (fold_left Rmin l x = x \/ In (fold_left Rmin l x) l) /\ forall y, x = y \/ In y l -> fold_left Rmin l x <= y.
Proof.
  revert x. induction l as [|z l IH]; intros x; cbn [fold_left].
  - split; [auto|]. intros y [<-|[]]. lra.
  - destruct (IH (Rmin x z)) as [A B]. split.
    + destruct A as [->|A]; [|right; right; exact A]. unfold Rmin. destruct (Rle_dec x z); [left|right; left]; reflexivity.
    + assert (C := B (Rmin x z) (or_introl eq_refl)). assert (Rmin x z <= x) by apply Rmin_l. assert (Rmin x z <= z) by apply Rmin_r.
      intros y [<-|[<-|Hy]]; [lra|lra|apply B; right; exact Hy].
Qed.
Lemma np_max_fin l : l <> [] -> exists M, np_max (map Fin l) = Ret (Fin M) /\ In M l /\ forall y, In y l -> y <= M.
Proof.
  destruct l as [|x l]; [congruence|]. intros _. cbn [map np_max]. rewrite fold_max. eexists; split; [reflexivity|].
  destruct (fold_Rmax l x) as [A B]. split; [destruct A as [->|A]; [left; reflexivity|right; exact A]|]. intros y [<-|H]; apply B; auto.
Qed.
Lemma np_min_fin l : l <> [] -> exists M, np_min (map Fin l) = Ret (Fin M) /\ In M l /\ forall y, In y l -> M <= y.
Proof.
  destruct l as [|x l]; [congruence|]. intros _. cbn [map np_min]. rewrite fold_min. eexists; split; [reflexivity|].
  destruct (fold_Rmin l x) as [A B]. split; [destruct A as [->|A]; [left; reflexivity|right; exact A]|]. intros y [<-|H]; apply B; auto.
Qed.
Lemma np_max_is l M : In M l -> (forall y, In y l -> y <= M) -> np_max (map Fin l) = Ret (Fin M).
Proof.
  intros H B. destruct (np_max_fin l) as (M' & -> & I & B'); [destruct l; [destruct H|congruence]|].
  do 2 f_equal. apply Rle_antisym; auto.
Qed.

(** ** Reading the cement volume *)
Lemma fselect_fin x (L : list (R * R)) : fselect (Fin x) (map (fun p => Fin (snd p)) L) (map (fun p => Fin (fst p)) L) =
  Ret (map (fun p => Fin (fst p)) (filter (fun p => Reqb (snd p) x) L)).
Proof.
  induction L as [|p L IH]; [reflexivity|]. cbn [map fselect filter]. unfold feqb at 1. cbn [fcmp]. rewrite IH. cbn [call].
  destruct (Reqb (snd p) x); reflexivity.
Qed.
Lemma filter_unique (L : list (R * R)) s a : NoDup (map snd L) -> In (s, a) L -> filter (fun p => Reqb (snd p) a) L = [(s, a)].
Proof.
  induction L as [|p L IH]; [intros _ []|]. cbn [map filter]. intros N H. inversion N as [|? ? Nin N']; subst. destruct H as [->|H].
  - cbn [snd]. rewrite Reqb_true by reflexivity. f_equal. clear - Nin. cbn [snd] in Nin. induction L as [|q L IH]; [reflexivity|]. cbn [filter].
    rewrite Reqb_false; [apply IH; intros X; apply Nin; right; exact X|]. intros E. apply Nin. left. exact E.
  - rewrite Reqb_false; [auto|]. intros E. apply Nin. rewrite E. apply (in_map snd) in H. exact H.
Qed.
Lemma last_map {A B} (f : A -> B) l d : last (map f l) (f d) = f (last l d).
Proof. induction l as [|x l IH]; [reflexivity|]. cbn [map]. destruct l as [|y l]; [reflexivity|]. cbn [map] in *. exact IH. Qed.
Lemma last_In {A} (l : list A) d : l <> [] -> In (last l d) l.
Proof. induction l as [|x l IH]; [congruence|]. intros _. destruct l as [|y l]; [left; reflexivity|]. right. apply IH. congruence. Qed.

Lemma cem_sample_read (lines : list (R * R)) v : lines <> [] -> NoDup (map snd lines) -> exists c,
  QI_cem_sample (map (fun p => Fin (fst p)) lines) false (map (fun p => Fin (snd p)) lines) (Fin v) = Ret (Fin c) /\ cement_read lines v c.
Proof.
  destruct lines as [|p0 L] eqn:EL; [congruence|]. intros _ ND. unfold QI_cem_sample.
  change (map (fun p : R * R => Fin (snd p)) (p0 :: L)) with (Fin (snd p0) :: map (fun p => Fin (snd p)) L) at 1. cbv iota.
  rewrite <- EL in *. rewrite (last_map (fun p => Fin (snd p)) lines p0). unfold fleb. cbn [fcmp].
  destruct (Rle_dec v (snd p0)) as [H0|H0].
  { rewrite (Rleb_true v) by exact H0. exists 0. split; [reflexivity|]. eapply read_below; eauto. }
  assert (H0' : snd p0 < v) by lra. rewrite (Rleb_false v) by exact H0'.
  destruct (Rle_dec (snd (last lines p0)) v) as [H1|H1].
  { rewrite (Rleb_true _ v) by exact H1. exists 0.1. split; [reflexivity|]. eapply read_above; eauto. }
  assert (H1' : v < snd (last lines p0)) by lra. rewrite (Rleb_false _ v) by exact H1'.
  assert (I0 : In p0 lines) by (rewrite EL; left; reflexivity).
  assert (I1 : In (last lines p0) lines) by (apply last_In; rewrite EL; congruence).
  rewrite <- (map_map snd Fin lines). rewrite (fmask_fin _ (fun z => Rltb z v)) by reflexivity. cbn [call].
  destruct (np_max_fin (filter (fun z => Rltb z v) (map snd lines))) as (a & -> & Ia & Ma).
  { intros E. assert (X : In (snd p0) []); [|destruct X]. rewrite <- E. apply filter_In. split; [apply in_map; exact I0|apply Rltb_true; exact H0']. }
  cbn [call]. rewrite (fmask_fin _ (fun z => Rltb v z)) by reflexivity. cbn [call].
  destruct (np_min_fin (filter (fun z => Rltb v z) (map snd lines))) as (b & -> & Ib & Mb).
  { intros E. assert (X : In (snd (last lines p0)) []); [|destruct X]. rewrite <- E. apply filter_In. split; [apply in_map; exact I1|apply Rltb_true; exact H1']. }
  cbn [call]. rewrite (map_map snd Fin lines), !fselect_fin. cbn [call].
  apply filter_In in Ia as [Ia La], Ib as [Ib Lb]. apply Rltb_iff in La, Lb.
  apply in_map_iff in Ia as ((s & a') & E & Ia). cbn [snd] in E. subst a'. apply in_map_iff in Ib as ((s' & b') & E & Ib). cbn [snd] in E. subst b'.
  rewrite (filter_unique lines s a), (filter_unique lines s' b) by assumption. cbn [map fst].
  exists (lerp a s b s' v). split.
  - rewrite fsub_fin, fsub_fin, fdiv_fin by lra. rewrite fsub_fin, fmul_fin, fadd_fin. do 2 f_equal. unfold lerp. field. lra.
  - eapply read_inside; eauto. intros p Hp. destruct (Rtotal_order (snd p) v) as [H|[H|H]].
    + left. apply Ma. apply filter_In. split; [apply in_map; exact Hp|apply Rltb_true; exact H].
    + auto.
    + right. right. apply Mb. apply filter_In. split; [apply in_map; exact Hp|apply Rltb_true; exact H].
Qed.

(** ** Matrix properties *)
Lemma cemented_fractions v pc p : 0 <= v -> v <= 1 - pc -> p <= pc -> p < 1 -> fractions (cemented v pc p).
Proof.
  intros H1 H2 H3 H4. split.
  - assert (0 < / (1 - p)) by (apply Rinv_0_lt_compat; lra). unfold cemented.
    repeat apply Forall_cons; try apply Forall_nil; apply Rmult_le_pos; lra.
  - cbn. field. lra.
Qed.
Lemma fractions_fin m v pc p : p <> 1 -> QI_fractions m (Fin v) (Fin pc) (Fin p) =
  Ret (Fin (v / (1 - p)), Fin ((1 - pc - v) / (1 - p)), Fin ((pc - p) / (1 - p))).
Proof. intros H. unfold QI_fractions. repeat (first [fl1 | rewrite fdiv_fin by lra]; cbv beta zeta). reflexivity. Qed.
Lemma matrix_fin m v pc p Ms Mg Mc : 0 <= v -> v <= 1 - pc -> p <= pc -> p < 1 -> 0 < Ms -> 0 < Mg -> 0 < Mc ->
  QI_matrix_modulus m (Fin v) (Fin pc) (Fin p) (Fin Ms) (Fin Mg) (Fin Mc) = Ret (Fin (hill (cemented v pc p) [Ms; Mg; Mc])) /\
  between_some [Ms; Mg; Mc] (hill (cemented v pc p) [Ms; Mg; Mc]).
Proof.
  intros H1 H2 H3 H4 P1 P2 P3. assert (F := cemented_fractions v pc p H1 H2 H3 H4).
  destruct (VRH_main (cemented v pc p) [Ms; Mg; Mc] eq_refl F ltac:(repeat constructor; assumption)) as (V & R & H & E & EV & ER & EH & PR & B & BV & BR).
  assert (BT : between_some [Ms; Mg; Mc] (hill (cemented v pc p) [Ms; Mg; Mc])).
  { unfold hill. rewrite <- EV, <- ER, <- EH. split.
    - destruct BR as [BR _]. unfold above_some in *. eapply Exists_impl; [|exact BR]. cbv beta. intros; lra.
    - destruct BV as [_ BV]. unfold below_some in *. eapply Exists_impl; [|exact BV]. cbv beta. intros; lra. }
  split; [|exact BT]. unfold QI_matrix_modulus. rewrite fractions_fin by lra. cbn [call]. unfold feqb. cbn [fcmp].
  destruct (Req_EM_T v 0) as [Z|Z].
  - rewrite Reqb_true by exact Z. subst v.
    destruct (VRH_main [(1 - pc - 0) / (1 - p); (pc - p) / (1 - p)] [Mg; Mc] eq_refl) as (V' & R' & H' & E' & EV' & ER' & EH' & _).
    + destruct F as [F1 F2]. split; [exact (Forall_inv_tail F1)|]. cbn. field. lra.
    + repeat constructor; assumption.
    + cbn [map] in E'. rewrite E'. cbn [call]. f_equal. f_equal. rewrite EH', EV', ER'. unfold hill, cemented. cbn [wsum map].
      replace (0 / (1 - p)) with 0 by (field; lra). rewrite !Rmult_0_l, !Rplus_0_l. reflexivity.
  - rewrite Reqb_false by exact Z. unfold cemented in E. cbn [map] in E. rewrite E. cbn [call]. f_equal. f_equal. unfold hill. rewrite EH, EV, ER. reflexivity.
Qed.
Lemma den_fin m v pc p Ds Dg Dc : p <> 1 -> 0 < Ds -> 0 < Dg -> 0 < Dc ->
  QI_den_matrix m (Fin v) (Fin pc) (Fin p) (Fin Ds) (Fin Dg) (Fin Dc) = Ret (Fin (wsum (cemented v pc p) [Ds; Dg; Dc])).
Proof.
  intros H P1 P2 P3. unfold QI_den_matrix. rewrite fractions_fin by exact H. cbn [call]. unfold EM_VRH. cbn [length Nat.eqb negb map].
  unfold fdot. cbn [fmap2 fsum]. rewrite !fdiv_fin by lra. rewrite !fmul_fin, !fadd_fin, bind_fin. 
  match goal with |- context [bind (fdiv NumPy #1 #?r)] => destruct (Req_EM_T r 0) as [Z|Z] end.
  - rewrite Z. rewrite fdiv_zero_np by lra. rewrite bind_inf. cbn [call bind fadd fmul fdiv].
    destruct (Req_EM_T (1/2) 0); [lra|]. cbn [bind call]. reflexivity.
  - rewrite fdiv_fin by exact Z. rewrite bind_fin. rewrite fadd_fin, fmul_fin, bind_fin. cbn [call]. reflexivity.
Qed.

(** The mineral averages of [QI.screening] etc. *)
Lemma mineral_fin Dq Kq Gq Ds Ks Gs v : 0 <= v <= 1 -> 0 < Kq -> 0 < Gq -> 0 < Ks -> 0 < Gs ->
  QI_mineral (Fin Dq) (Fin Kq) (Fin Gq) (Fin Ds) (Fin Ks) (Fin Gs) (Fin v) =
  Ret (Fin (hill [v; 1 - v] [Ks; Kq]), Fin (hill [v; 1 - v] [Gs; Gq]), Fin (Ds * v + Dq * (1 - v))).
Proof.
  intros Hv H1 H2 H3 H4. unfold QI_mineral. rewrite fsub_fin.
  assert (F : fractions [v; 1 - v]). { split; [repeat apply Forall_cons; try apply Forall_nil; lra|cbn; ring]. }
  destruct (VRH_main [v; 1 - v] [Ks; Kq] eq_refl F) as (? & ? & ? & E & EV & ER & EH & _); [repeat constructor; assumption|].
  destruct (VRH_main [v; 1 - v] [Gs; Gq] eq_refl F) as (? & ? & ? & E' & EV' & ER' & EH' & _); [repeat constructor; assumption|].
  cbn [map] in E, E'. rewrite E. cbn [call]. rewrite E'. cbn [call]. rewrite !fmul_fin, fadd_fin, bind_fin.
  unfold hill. rewrite EH, EV, ER, EH', EV', ER'. reflexivity.
Qed.
Lemma hill2_bounds v a b : 0 <= v <= 1 -> 0 < a -> 0 < b -> Rmin a b <= hill [v; 1 - v] [a; b] <= Rmax a b.
Proof.
  intros Hv Ha Hb. assert (F : fractions [v; 1 - v]). { split; [repeat apply Forall_cons; try apply Forall_nil; lra|cbn; ring]. }
  destruct (VRH_main [v; 1 - v] [a; b] eq_refl F) as (V & R' & H & E & EV & ER & EH & PR & B & [_ BV] & [BR _]); [repeat constructor; assumption|].
  unfold hill. rewrite <- EV, <- ER, <- EH.
  assert (A1 := Rmin_l a b). assert (A2 := Rmin_r a b). assert (A3 := Rmax_l a b). assert (A4 := Rmax_r a b).
  assert (V <= Rmax a b). { inversion BV as [? ? X|? ? X]; subst; [|inversion X as [? ? Y|? ? Y]; subst; [|inversion Y]]; lra. }
  assert (Rmin a b <= R'). { inversion BR as [? ? X|? ? X]; subst; [|inversion X as [? ? Y|? ? Y]; subst; [|inversion Y]]; lra. }
  lra.
Qed.

(** ** Normalisation *)
Lemma normalize_fin ds M : In M ds -> (forall y, In y ds -> y <= M) -> M <> 0 ->
  QI_normalize (map Fin ds) = Ret (map Fin (map (fun d => d / M) ds)).
Proof.
  intros H B N. unfold QI_normalize. rewrite (np_max_is ds M H B). cbn [call]. f_equal. rewrite !map_map. apply map_ext. intros d.
  rewrite fsub_fin, fdiv_fin by exact N. rewrite fsub_fin. f_equal. field. exact N.
Qed.

(** ** The screening rows *)
Lemma bind_inv' {B} x (k : fl -> outcome B) r : bind x k = Ret r -> k x = Ret r /\ forall C (k' : fl -> outcome C), bind x k' = k' x.
Proof. destruct x; cbn; try discriminate; auto. Qed.
Lemma Gassmann_G m Kd Gd K0 Kf phi Ks Gs : Fluid_Gassmann m Kd Gd K0 Kf phi = Ret (Ks, Gs) -> Gs = Gd.
Proof.
  unfold Fluid_Gassmann. intros H. apply bind_inv in H. apply bind_inv in H. apply bind_inv in H. apply bind_inv in H. congruence.
Qed.
Lemma vels_compose m Kd Gd K0 D0 Kf Df phi Ks Gs vp vs :
  (forall C (k : fl -> outcome C), bind (D0 * (#1 - phi) + Df * phi)%fl k = k (D0 * (#1 - phi) + Df * phi)%fl) ->
  Fluid_Gassmann m Kd Gd K0 Kf phi = Ret (Ks, Gs) -> utils_V m Ks Gs (D0 * (#1 - phi) + Df * phi)%fl = Ret (vp, vs) ->
  Fluid_vels m Kd Gd K0 D0 Kf Df phi = Ret (vp, vs, (D0 * (#1 - phi) + Df * phi)%fl).
Proof.
  intros HB HG HV. assert (E := Gassmann_G _ _ _ _ _ _ _ _ HG). subst Gs. unfold Fluid_vels. rewrite HB, HG. cbn [call].
  unfold utils_V in HV. apply bind_inv' in HV as [HV X]. rewrite X. apply bind_inv' in HV as [HV Y]. rewrite Y. congruence.
Qed.
Lemma mask_lt_fin a b v r : mask_lt (Fin a) (Fin b) v = Ret r -> (a < b -> r = NaN) /\ (b <= a -> r = v).
Proof. unfold mask_lt, fltb. cbn [fcmp]. unfold Rltb. destruct (Rlt_dec a b); intros [= <-]; split; intros; auto; lra. Qed.
Lemma mask_gt_fin a b v r : mask_gt (Fin a) (Fin b) v = Ret r -> (b < a -> r = NaN) /\ (a <= b -> r = v).
Proof. unfold mask_gt, fltb. cbn [fcmp]. unfold Rltb. destruct (Rlt_dec b a); intros [= <-]; split; intros; auto; lra. Qed.
Lemma screening_elem K0 G0 D0 Dqz Kqz Dsh Ksh Dc Kc Gc Db Kb b phi_c sigma vsh scheme f Cn phi vp1 vp2 vp3 vs1 vs2 vs3 :
  QI_screening_elem NumPy K0 G0 D0 Dqz Kqz Dsh Ksh Dc Kc Gc Db Kb (Fin b) phi_c sigma vsh scheme f Cn (Fin phi) = Ret (vp1, vp2, vp3, vs1, vs2, vs3) ->
  (exists Kd Gd rho, GM_softsand NumPy K0 G0 (Fin phi) phi_c Cn sigma f = Ret (Kd, Gd) /\ Fluid_vels NumPy Kd Gd K0 D0 Kb Db (Fin phi) = Ret (vp1, vs1, rho)) /\
  (exists Kd Gd vp vs rho, GM_MUHS NumPy K0 G0 Kc Gc (Fin phi) (Fin b) phi_c Cn scheme = Ret (Kd, Gd) /\
     Fluid_vels NumPy Kd Gd K0 D0 Kb Db (Fin phi) = Ret (vp, vs, rho) /\
     (phi <= b -> vp2 = vp /\ vs2 = vs) /\ (b < phi -> vp2 = NaN /\ vs2 = NaN)) /\
  (exists Kd Gd K D vp vs rho, GM_contactcement NumPy K0 G0 Kc Gc (Fin phi) phi_c Cn scheme = Ret (Kd, Gd) /\
     QI_matrix_modulus NumPy vsh phi_c (Fin phi) Ksh Kqz Kc = Ret K /\ QI_den_matrix NumPy vsh phi_c (Fin phi) Dsh Dqz Dc = Ret D /\
     Fluid_vels NumPy Kd Gd K D Kb Db (Fin phi) = Ret (vp, vs, rho) /\
     (b <= phi -> vp3 = vp /\ vs3 = vs) /\ (phi < b -> vp3 = NaN /\ vs3 = NaN)).
Proof.
  unfold QI_screening_elem. intros H.
  apply call_inv in H as ((Kd1 & Gd1) & S1 & H). apply call_inv in H as ((Kd3 & Gd3) & S3 & H).
  apply call_inv in H as (Km & SK & H). apply call_inv in H as (Dm & SD & H).
  apply call_inv in H as ((Ks1 & Gs1) & G1 & H). apply call_inv in H as ((Ks3 & Gs3) & G3 & H).
  apply bind_inv' in H as [H B1]. apply bind_inv' in H as [H B3].
  apply call_inv in H as ((p1 & s1) & V1 & H). apply call_inv in H as ((p3 & s3) & V3 & H).
  apply call_inv in H as (p3' & M1 & H). apply call_inv in H as (s3' & M2 & H).
  apply call_inv in H as ((Kd2 & Gd2) & S2 & H). apply call_inv in H as ((Ks2 & Gs2) & G2 & H).
  apply call_inv in H as ((p2 & s2) & V2 & H). apply call_inv in H as (p2' & M3 & H). apply call_inv in H as (s2' & M4 & H).
  injection H as <- <- <- <- <- <-.
  apply mask_lt_fin in M1 as [M1 M1'], M2 as [M2 M2']. apply mask_gt_fin in M3 as [M3 M3'], M4 as [M4 M4'].
  split; [|split].
  - do 3 eexists. split; [exact S1|]. eapply vels_compose; eassumption.
  - do 5 eexists. split; [exact S2|]. split; [eapply vels_compose; eassumption|]. auto.
  - do 7 eexists. split; [exact S3|]. split; [exact SK|]. split; [exact SD|]. split; [eapply vels_compose; eassumption|]. auto.
Qed.
Lemma linspace_fin a b n : (2 <= n)%nat -> np_linspace (Fin a) (Fin b) n = map (fun i => Fin (a + INR i * ((b - a) / INR (n - 1)))) (seq 0 n).
Proof.
  intros H. unfold np_linspace. apply map_ext. intros i. assert (0 < INR (n - 1)) by (apply lt_0_INR; lia).
  rewrite fsub_fin, fdiv_fin by lra. rewrite fmul_fin, fadd_fin. reflexivity.
Qed.

(** ** Constant-cement lines *)
Lemma walpole_in z f a b : 0 <= z -> 0 < a < b -> 0 < f <= 1 -> a <= walpole z f a b < b.
Proof.
  intros Hz Hab Hf. unfold walpole. assert (A : 0 < f / (a + z)) by (apply Rdiv_lt_0_compat; lra).
  assert (B : 0 <= (1 - f) / (b + z)) by (apply Rmult_le_pos; [lra|left; apply Rinv_0_lt_compat; lra]).
  assert (C : / (b + z) < f / (a + z) + (1 - f) / (b + z)).
  { assert (/ (b + z) < / (a + z)) by (apply Rinv_lt_contravar; [apply Rmult_lt_0_compat|]; lra).
    assert (f * / (b + z) < f * / (a + z)) by (apply Rmult_lt_compat_l; lra). unfold Rdiv. lra. }
  assert (D : f / (a + z) + (1 - f) / (b + z) <= / (a + z)).
  { assert (/ (b + z) <= / (a + z)) by (apply Rinv_le_contravar; lra).
    assert ((1 - f) * / (b + z) <= (1 - f) * / (a + z)) by (apply Rmult_le_compat_l; lra). unfold Rdiv. lra. }
  set (q := f / (a + z) + (1 - f) / (b + z)) in *. assert (0 < / (b + z)) by (apply Rinv_0_lt_compat; lra).
  split.
  - assert (/ / (a + z) <= / q) by (apply Rinv_le_contravar; lra). rewrite Rinv_inv in H0. lra.
  - assert (/ q < / / (b + z)) by (apply Rinv_lt_contravar; [apply Rmult_lt_0_compat|]; lra). rewrite Rinv_inv in H0. lra.
Qed.
Section Line.
Variables (K0 G0 Kc Gc phi_b phi_c Cn Kf Gf : R) (scheme : Z).
Hypotheses (HKf : 0 < Kf < K0) (HGf : 0 < Gf < G0).
Hypothesis HC : GM_contactcement NumPy (Fin K0) (Fin G0) (Fin Kc) (Fin Gc) (Fin phi_b) (Fin phi_c) (Fin Cn) scheme = Ret (Fin Kf, Fin Gf).
Lemma line_frames phi : 0 < phi <= phi_b -> exists Kl Gl Ku Gu,
  GM_constantcement NumPy (Fin phi_b) (Fin K0) (Fin G0) (Fin Kc) (Fin Gc) (Fin phi) (Fin phi_c) (Fin Cn) scheme = Ret (Fin Kl, Fin Gl) /\
  GM_MUHS NumPy (Fin K0) (Fin G0) (Fin Kc) (Fin Gc) (Fin phi) (Fin phi_b) (Fin phi_c) (Fin Cn) scheme = Ret (Fin Ku, Fin Gu) /\
  Kf <= Kl <= Ku /\ Ku < K0 /\ Gf <= Gl <= Gu /\ Gu < G0 /\
  Kl = walpole (zK Gf) (phi / phi_b) Kf K0 /\ Gl = walpole (zG Kf Gf) (phi / phi_b) Gf G0.
Proof.
  intros Hp. assert (T : 0 < phi / phi_b <= 1) by (split; [apply lt_div_iff|apply div_le_iff]; lra).
  assert (A1 : 0 < zK Gf) by (apply zK_pos; lra). assert (A2 : 0 < zK G0) by (apply zK_pos; lra).
  assert (A3 : 0 < zG Kf Gf) by (apply zG_pos; lra). assert (A4 : 0 < zG K0 G0) by (apply zG_pos; lra).
  rewrite (constantcement_fin NumPy K0 G0 Kc Gc phi phi_b phi_c Cn scheme Kf Gf HC) by lra.
  rewrite (MUHS_fin NumPy K0 G0 Kc Gc phi phi_b phi_c Cn scheme Kf Gf HC) by lra.
  do 4 eexists. do 2 (split; [reflexivity|]).
  assert (zK Gf <= zK G0) by (unfold zK; lra). assert (zG Kf Gf <= zG K0 G0) by (apply zG_mono; lra).
  assert (B1 := walpole_in (zK Gf) (phi / phi_b) Kf K0 ltac:(lra) HKf T).
  assert (B2 := walpole_in (zK G0) (phi / phi_b) Kf K0 ltac:(lra) HKf T).
  assert (B3 := walpole_in (zG Kf Gf) (phi / phi_b) Gf G0 ltac:(lra) HGf T).
  assert (B4 := walpole_in (zG K0 G0) (phi / phi_b) Gf G0 ltac:(lra) HGf T).
  assert (B5 : walpole (zK Gf) (phi / phi_b) Kf K0 <= walpole (zK G0) (phi / phi_b) Kf K0) by (apply walpole_mono_z; lra).
  assert (B6 : walpole (zG Kf Gf) (phi / phi_b) Gf G0 <= walpole (zG K0 G0) (phi / phi_b) Gf G0) by (apply walpole_mono_z; lra).
  repeat split; lra.
Qed.
End Line.
Lemma vels_order Kd Gd Kd' Gd' K0 D0 Kb Db phi : 0 < Kd -> Kd <= Kd' -> Kd' < K0 -> 0 < Gd -> Gd <= Gd' -> 0 < Kb < K0 -> 0 < phi <= 1 ->
  0 < D0 * (1 - phi) + Db * phi -> exists vp vs vp' vs',
  Fluid_vels NumPy (Fin Kd) (Fin Gd) (Fin K0) (Fin D0) (Fin Kb) (Fin Db) (Fin phi) = Ret (Fin vp, Fin vs, Fin (D0 * (1 - phi) + Db * phi)) /\
  Fluid_vels NumPy (Fin Kd') (Fin Gd') (Fin K0) (Fin D0) (Fin Kb) (Fin Db) (Fin phi) = Ret (Fin vp', Fin vs', Fin (D0 * (1 - phi) + Db * phi)) /\
  0 < vs < vp /\ vp <= vp' /\ vs <= vs' /\ (Gd < Gd' -> vp < vp' /\ vs < vs').
Proof.
  intros H1 H2 H3 H4 H5 H6 H7 H8.
  rewrite (vels_eval NumPy Kd Gd K0 phi ltac:(lra) ltac:(lra) H7) by lra. rewrite (vels_eval NumPy Kd' Gd' K0 phi ltac:(lra) ltac:(lra) H7) by lra.
  do 4 eexists. do 2 (split; [reflexivity|]). set (rho := D0 * (1 - phi) + Db * phi) in *.
  assert (I : 0 < / rho) by (apply Rinv_0_lt_compat; lra).
  destruct (gK_range Kd K0 Kb phi ltac:(lra) ltac:(lra) ltac:(lra) H7).
  assert (M := gK_mono_Kd Kd Kd' K0 Kb phi ltac:(lra) H6 ltac:(lra) H2 H3 H7).
  assert (P : forall x, 0 < x -> 0 < x / rho) by (intros; apply Rmult_lt_0_compat; lra).
  assert (L : forall x y, x <= y -> x / rho <= y / rho) by (intros; apply Rmult_le_compat_r; lra).
  assert (LT : forall x y, x < y -> x / rho < y / rho) by (intros; apply Rmult_lt_compat_r; lra).
  assert (Q1 := P Gd ltac:(lra)). assert (Q2 := P Gd' ltac:(lra)). 
  assert (Q3 := P (gK Kd K0 Kb phi + 4/3 * Gd) ltac:(lra)). assert (Q4 := P (gK Kd' K0 Kb phi + 4/3 * Gd') ltac:(lra)).
  assert (S1 : sqrt (Gd / rho) <= sqrt (Gd' / rho)) by (apply sqrt_le_1; try lra; apply L; lra).
  assert (S2 : sqrt ((gK Kd K0 Kb phi + 4/3 * Gd) / rho) <= sqrt ((gK Kd' K0 Kb phi + 4/3 * Gd') / rho)) by (apply sqrt_le_1; try lra; apply L; lra).
  assert (S3 : sqrt (Gd / rho) < sqrt ((gK Kd K0 Kb phi + 4/3 * Gd) / rho)) by (apply sqrt_lt_1; try lra; apply LT; lra).
  assert (S4 := sqrt_lt_R0 _ Q1). split; [lra|]. split; [lra|]. split; [lra|].
  intros HG. assert (sqrt (Gd / rho) < sqrt (Gd' / rho)) by (apply sqrt_lt_1; try lra; apply LT; lra).
  assert (sqrt ((gK Kd K0 Kb phi + 4/3 * Gd) / rho) < sqrt ((gK Kd' K0 Kb phi + 4/3 * Gd') / rho)) by (apply sqrt_lt_1; try lra; apply LT; lra). lra.
Qed.

(** ** NumPy arithmetic never raises *)
Definition ne (x : fl) : Prop := forall e, x <> Exc e.
Lemma ne_fin r : ne (Fin r). Proof. intros e; congruence. Qed.
Lemma ne_add x y : ne x -> ne y -> ne (x + y)%fl.
Proof. intros A B e. destruct x, y; cbn; try congruence; try (intros; apply (A e); congruence); apply B. Qed.
Lemma ne_sub x y : ne x -> ne y -> ne (x - y)%fl.
Proof. intros A B e. destruct x, y; cbn; try congruence; try (intros; apply (A e); congruence); apply B. Qed.
Lemma ne_neg x : ne x -> ne (- x)%fl.
Proof. intros A e. destruct x; cbn; try congruence; apply A. Qed.
Lemma ne_mul x y : ne x -> ne y -> ne (x * y)%fl.
Proof. intros A B e. destruct x, y; cbn; try destruct (Req_EM_T _ _); try congruence; try (intros; apply (A e); congruence); apply B. Qed.
Lemma ne_div x y : ne x -> ne y -> ne (x /n y)%fl.
Proof.
  intros A B e. destruct x as [a| | | |e'], y as [b| | | |e'']; cbn; try destruct (Req_EM_T b 0); try destruct (Req_EM_T a 0); try congruence;
  try (intros; apply (A e); congruence); apply B.
Qed.
Lemma ne_pown x n : ne x -> ne (x ^^ n)%fl.
Proof. intros A e. destruct x, n; cbn; try congruence; intros; apply (A e); congruence. Qed.
Lemma ne_pow x y : ne x -> ne y -> ne (fpow NumPy x y).
Proof.
  intros A B e. destruct x as [a| | | |e'], y as [b| | | |e'']; cbn;
  repeat match goal with |- context [if ?c then _ else _] => destruct c end; try congruence; try (intros; apply (A e); congruence); apply B.
Qed.
Lemma ne_sqrt x : ne x -> ne (fsqrt x).
Proof. intros A e. destruct x; cbn; try destruct (Rle_dec _ _); try congruence; apply A. Qed.
Lemma bind_ne {B} x (k : fl -> outcome B) : ne x -> bind x k = k x.
Proof. intros H. destruct x; try reflexivity. destruct (H e eq_refl). Qed.
Ltac ne := repeat first [assumption | apply ne_fin | apply ne_add | apply ne_sub | apply ne_mul | apply ne_div | apply ne_neg | apply ne_pown | apply ne_pow | apply ne_sqrt].
Ltac nestep := match goal with |- context [bind ?x _] => let N := fresh "N" in assert (N : ne x) by ne; rewrite (bind_ne x _ N); cbv beta; clear N end.
Definition ret2 (o : outcome (fl * fl)) := exists a b, o = Ret (a, b) /\ ne a /\ ne b.
Ltac steps := repeat match goal with |- ret2 (bind ?x _) => let N := fresh "N" in assert (N : ne x) by ne; rewrite (bind_ne x _ N); revert N; generalize x; intros ? N; cbv beta end.
Lemma cc_ret K0 G0 Kc Gc phi phic Cn s : ne K0 -> ne G0 -> ne Kc -> ne Gc -> ne phi -> ne phic -> ne Cn -> ret2 (GM_contactcement NumPy K0 G0 Kc Gc phi phic Cn s).
Proof.
  intros. unfold GM_contactcement. destruct (Z.eqb s 1); steps; do 2 eexists; (split; [reflexivity|split; ne]).
Qed.
Lemma soft_ret K0 G0 phi phic Cn sg f : ne K0 -> ne G0 -> ne phi -> ne phic -> ne Cn -> ne sg -> ne f -> ret2 (GM_softsand NumPy K0 G0 phi phic Cn sg f).
Proof.
  intros. unfold GM_softsand.
  assert (H6 : ret2 (GM_hertzmindlin NumPy K0 G0 phic Cn sg f)). { unfold GM_hertzmindlin. steps. do 2 eexists; (split; [reflexivity|split; ne]). }
  destruct H6 as (a & b & -> & ? & ?). cbn [call]. steps. do 2 eexists; (split; [reflexivity|split; ne]).
Qed.
Lemma MUHS_ret K0 G0 Kc Gc phi pb phic Cn s : ne K0 -> ne G0 -> ne Kc -> ne Gc -> ne phi -> ne pb -> ne phic -> ne Cn -> ret2 (GM_MUHS NumPy K0 G0 Kc Gc phi pb phic Cn s).
Proof.
  intros. unfold GM_MUHS. destruct (cc_ret K0 G0 Kc Gc pb phic Cn s) as (a & b & -> & ? & ?); try assumption. cbn [call]. steps. do 2 eexists; (split; [reflexivity|split; ne]).
Qed.
Lemma Gassmann_ret Kd Gd K Kf phi : ne Kd -> ne Gd -> ne K -> ne Kf -> ne phi -> ret2 (Fluid_Gassmann NumPy Kd Gd K Kf phi).
Proof. intros. unfold Fluid_Gassmann. steps. do 2 eexists; (split; [reflexivity|split; ne]). Qed.
Lemma V_ret K G rho : ne K -> ne G -> ne rho -> ret2 (utils_V NumPy K G rho).
Proof. intros. unfold utils_V. steps. do 2 eexists; (split; [reflexivity|split; ne]). Qed.
Lemma VRH_ret ws Ms : length ws = length Ms -> Forall ne ws -> Forall ne Ms -> exists a b c, EM_VRH ws Ms = Ret (a, b, c) /\ ne a /\ ne b /\ ne c.
Proof.
  intros L A B. assert (F : forall l, Forall ne l -> ne (fsum l)). { intros l H. induction H; cbn [fsum]; ne. }
  assert (D : forall u v, Forall ne u -> Forall ne v -> Forall ne (fmap2 fmul u v)).
  { intros u v H. revert v. induction H as [|x u Hx Hu IH]; intros [|y v] Hv; cbn [fmap2]; try constructor. { inversion Hv; subst; ne. } apply IH. inversion Hv; assumption. }
  unfold EM_VRH. rewrite L, Nat.eqb_refl. cbn [negb]. unfold fdot.
  assert (N1 : ne (fsum (fmap2 fmul ws Ms))) by auto. 
  assert (N2 : ne (fsum (fmap2 fmul ws (map (fun x => #1 /n x)%fl Ms)))).
  { apply F, D; [exact A|]. apply Forall_map. eapply Forall_impl; [|exact B]. cbv beta. intros; ne. }
  assert (N3 : ne (#1 /n fsum (fmap2 fmul ws (map (fun x => #1 /n x)%fl Ms)))%fl) by ne.
  rewrite (bind_ne _ _ N1). cbv beta. rewrite (bind_ne _ _ N3). cbv beta. rewrite bind_ne by ne. do 3 eexists. split; [reflexivity|]. split; [ne|]. split; ne.
Qed.
Lemma mask_ret p q v : (exists r, mask_lt (Fin p) (Fin q) v = Ret r) /\ (exists r, mask_gt (Fin p) (Fin q) v = Ret r).
Proof. unfold mask_lt, mask_gt, fltb. cbn [fcmp]. destruct (Rltb p q), (Rltb q p); eauto. Qed.
Lemma fractions_ret v pc p : ne v -> ne pc -> ne p -> exists a b c, QI_fractions NumPy v pc p = Ret (a, b, c) /\ ne a /\ ne b /\ ne c.
Proof. intros. unfold QI_fractions. repeat (rewrite bind_ne by ne; cbv beta). do 3 eexists. split; [reflexivity|]. split; [ne|]. split; ne. Qed.
Lemma matrix_ret v pc p Ms Mg Mc : ne pc -> ne p -> ne Ms -> ne Mg -> ne Mc ->
  exists a, QI_matrix_modulus NumPy (Fin v) pc p Ms Mg Mc = Ret a /\ ne a.
Proof.
  intros. unfold QI_matrix_modulus. destruct (fractions_ret (Fin v) pc p) as (a & b & c & -> & Ha & Hb & Hc); [ne..|]. cbn [call]. unfold feqb. cbn [fcmp].
  destruct (Reqb v 0).
  - destruct (VRH_ret [b; c] [Mg; Mc] eq_refl) as (x & y & z & -> & Hx & Hy & Hz); [repeat constructor; assumption..|]. cbn [call]. eauto.
  - destruct (VRH_ret [a; b; c] [Ms; Mg; Mc] eq_refl) as (x & y & z & -> & Hx & Hy & Hz); [repeat constructor; assumption..|]. cbn [call]. eauto.
Qed.
Lemma den_ret v pc p Ms Mg Mc : ne v -> ne pc -> ne p -> ne Ms -> ne Mg -> ne Mc -> exists a, QI_den_matrix NumPy v pc p Ms Mg Mc = Ret a /\ ne a.
Proof.
  intros. unfold QI_den_matrix. destruct (fractions_ret v pc p) as (a & b & c & -> & Ha & Hb & Hc); [ne..|]. cbn [call].
  destruct (VRH_ret [a; b; c] [Ms; Mg; Mc] eq_refl) as (x & y & z & -> & Hx & Hy & Hz); [repeat constructor; assumption..|]. cbn [call]. eauto.
Qed.
Lemma screening_elem_ret K0 G0 D0 Dq Kq Ds Ks Dc Kc Gc Db Kb b pc sg v s f Cn phi : ne K0 -> ne G0 -> ne D0 ->
  exists row, QI_screening_elem NumPy K0 G0 D0 (Fin Dq) (Fin Kq) (Fin Ds) (Fin Ks) (Fin Dc) (Fin Kc) (Fin Gc) (Fin Db) (Fin Kb) (Fin b) (Fin pc) (Fin sg) (Fin v) s (Fin f) (Fin Cn) (Fin phi) = Ret row.
Proof.
  intros HK HG HD. unfold QI_screening_elem.
  destruct (soft_ret K0 G0 (Fin phi) (Fin pc) (Fin Cn) (Fin sg) (Fin f)) as (k1 & g1 & -> & ? & ?); [ne..|]. cbn [call].
  destruct (cc_ret K0 G0 (Fin Kc) (Fin Gc) (Fin phi) (Fin pc) (Fin Cn) s) as (k3 & g3 & -> & ? & ?); [ne..|]. cbn [call].
  destruct (matrix_ret v (Fin pc) (Fin phi) (Fin Ks) (Fin Kq) (Fin Kc)) as (km & -> & ?); [ne..|]. cbn [call].
  destruct (den_ret (Fin v) (Fin pc) (Fin phi) (Fin Ds) (Fin Dq) (Fin Dc)) as (dm & -> & ?); [ne..|]. cbn [call].
  destruct (Gassmann_ret k1 g1 K0 (Fin Kb) (Fin phi)) as (ks1 & gs1 & -> & ? & ?); [ne..|]. cbn [call].
  destruct (Gassmann_ret k3 g3 km (Fin Kb) (Fin phi)) as (ks3 & gs3 & -> & ? & ?); [ne..|]. cbn [call].
  rewrite bind_ne by ne. cbv beta. rewrite bind_ne by ne. cbv beta.
  destruct (V_ret ks1 gs1 (D0 * (#1 - Fin phi) + Fin Db * Fin phi)%fl) as (p1 & s1 & -> & ? & ?); [ne..|]. cbn [call].
  destruct (V_ret ks3 gs3 (dm * (#1 - Fin phi) + Fin Db * Fin phi)%fl) as (p3 & s3 & -> & ? & ?); [ne..|]. cbn [call].
  destruct (mask_ret phi b p3) as [(p3' & ->) _], (mask_ret phi b s3) as [(s3' & ->) _]. cbn [call].
  destruct (MUHS_ret K0 G0 (Fin Kc) (Fin Gc) (Fin phi) (Fin b) (Fin pc) (Fin Cn) s) as (k2 & g2 & -> & ? & ?); [ne..|]. cbn [call].
  destruct (Gassmann_ret k2 g2 K0 (Fin Kb) (Fin phi)) as (ks2 & gs2 & -> & ? & ?); [ne..|]. cbn [call].
  destruct (V_ret ks2 gs2 (D0 * (#1 - Fin phi) + Fin Db * Fin phi)%fl) as (p2 & s2 & -> & ? & ?); [ne..|]. cbn [call].
  destruct (mask_ret phi b p2) as [_ (p2' & ->)], (mask_ret phi b s2) as [_ (s2' & ->)]. cbn [call]. eauto.
Qed.
Lemma oseq_total {A B} (f : A -> outcome B) l : (forall x, In x l -> exists y, f x = Ret y) -> exists r, oseq f l = Ret r.
Proof.
  induction l as [|x l IH]; intros H; [exists []; reflexivity|]. destruct (H x) as [y E]; [left; reflexivity|].
  destruct IH as [r E']; [intros; apply H; right; assumption|]. exists (y :: r). cbn [oseq]. rewrite E. cbn [call]. rewrite E'. reflexivity.
Qed.
Lemma screening_total Dq Kq Gq Ds Ks Gs Dc Kc Gc Db Kb b pc sg v s f Cn : exists phis rows,
  QI_screening (Fin Dq) (Fin Kq) (Fin Gq) (Fin Ds) (Fin Ks) (Fin Gs) (Fin Dc) (Fin Kc) (Fin Gc) (Fin Db) (Fin Kb) (Fin b) (Fin pc) (Fin sg) (Fin v) s (Fin f) (Fin Cn) = Ret (phis, rows).
Proof.
  unfold QI_screening, QI_mineral.
  destruct (VRH_ret [Fin v; (#1 - Fin v)%fl] [Fin Ks; Fin Kq] eq_refl) as (x & y & K0 & -> & _ & _ & HK); [repeat constructor; ne..|]. cbn [call].
  destruct (VRH_ret [Fin v; (#1 - Fin v)%fl] [Fin Gs; Fin Gq] eq_refl) as (x' & y' & G0 & -> & _ & _ & HG); [repeat constructor; ne..|]. cbn [call].
  rewrite bind_ne by ne. cbn [call].
  rewrite linspace_fin by lia.
  match goal with |- context [oseq ?g ?l] => destruct (oseq_total g l) as (r & ->) end.
  - intros x0 Hx. apply in_map_iff in Hx as (i & <- & _). apply screening_elem_ret; ne.
  - cbn [call]. eauto.
Qed.
(** Composition of shifted harmonic means with a common end member. *)
Lemma walpole_comp z f g a b : 0 <= z -> 0 < a -> 0 < b -> 0 < f <= 1 -> 0 < g <= 1 -> walpole z (f * g) a b = walpole z f (walpole z g a b) b.
Proof.
  intros Hz Ha Hb Hf Hg. unfold walpole. set (q := g / (a + z) + (1 - g) / (b + z)).
  assert (0 < g / (a + z)) by (apply Rdiv_lt_0_compat; lra).
  assert (0 <= (1 - g) / (b + z)) by (apply Rmult_le_pos; [lra|left; apply Rinv_0_lt_compat; lra]).
  assert (Q : 0 < q) by (unfold q; lra). replace (/ q - z + z) with (/ q) by ring. replace (f / / q) with (f * q) by (field; lra).
  f_equal. f_equal. unfold q. field. lra.
Qed.
Lemma oseq_maps {A A' B} (f : A -> outcome B) (g : A' -> A) l : oseq f (map g l) = oseq (fun x => f (g x)) l.
Proof. induction l as [|x l IH]; [reflexivity|]. cbn [map oseq]. rewrite IH. reflexivity. Qed.
Lemma combine_maps {A B C} (f : A -> B) (g : A -> C) l : combine (map f l) (map g l) = map (fun x => (f x, g x)) l.
Proof. induction l as [|x l IH]; [reflexivity|]. cbn [map combine]. rewrite IH. reflexivity. Qed.
Section Est.
Variables (lines : R -> R -> R) (seeds : list R) (Kqz Gqz Ksh Gsh phi_c Kc Gc Db Kb vsh Dsh Dqz Dc : R) (scheme : Z) (Cn : fl) (seeds_list : bool).
Definition line_at s phi := exists vs, QI_cal_v_const (Fin Dqz) (Fin Kqz) (Fin Gqz) (Fin Dsh) (Fin Ksh) (Fin Gsh) (Fin Dc) (Fin Kc) (Fin Gc) (Fin Db) (Fin Kb)
       (Fin (phi_c - s)) (Fin phi_c) (Fin vsh) (Fin phi) scheme = Ret (Fin (lines s phi), vs).
Lemma est_eq (logs : list (R * fl)) : (forall s q, In s seeds -> In q logs -> line_at s (fst q)) ->
  QI_estimate_cem (map (fun q => (Fin (fst q), snd q)) logs) (map Fin seeds) seeds_list
      (Fin Kqz) (Fin Gqz) (Fin Ksh) (Fin Gsh) (Fin phi_c) Cn (Fin Kc) (Fin Gc) (Fin Db) (Fin Kb) scheme (Fin vsh) (Fin Dsh) (Fin Dqz) (Fin Dc) =
  oseq (fun q => QI_cem_sample (map Fin seeds) seeds_list (map (fun s => Fin (lines s (fst q))) seeds) (snd q)) logs.
Proof.
  intros HL. unfold QI_estimate_cem. rewrite oseq_maps.
  rewrite (oseq_map _ (fun q : R * fl => map (fun i => Fin (lines i (fst q))) seeds)).
  - cbn [call]. rewrite map_map. cbn [snd]. rewrite combine_maps, oseq_maps. reflexivity.
  - intros (phi & vp) Hq. cbn [fst].
    assert (HL' : forall s, In s seeds -> line_at s phi) by (intros s Hs; exact (HL s _ Hs Hq)).
    assert (E : exists l, oseq (fun i => QI_cal_v_const (Fin Dqz) (Fin Kqz) (Fin Gqz) (Fin Dsh) (Fin Ksh) (Fin Gsh) (Fin Dc) (Fin Kc) (Fin Gc) (Fin Db) (Fin Kb)
         (Fin phi_c - i)%fl (Fin phi_c) (Fin vsh) (Fin phi) scheme) (map Fin seeds) = Ret l /\ map fst l = map (fun i => Fin (lines i phi)) seeds).
    { clear - HL'. induction seeds as [|s ss IH]; [exists []; auto|]. destruct (HL' s) as [vs E]; [left; reflexivity|].
      destruct IH as (l & E1 & E2); [intros; apply HL'; right; assumption|]. cbn [map oseq]. rewrite fsub_fin, E. cbn [call]. rewrite E1. cbn [call].
      eexists. split; [reflexivity|]. cbn [map fst]. rewrite E2. reflexivity. }
    destruct E as (l & -> & E). cbn [call]. rewrite E. reflexivity.
Qed.
Lemma est_read q : seeds <> [] -> NoDup (map (fun s => lines s (fst q)) seeds) -> exists c,
  QI_cem_sample (map Fin seeds) false (map (fun s => Fin (lines s (fst q))) seeds) (Fin (snd q)) = Ret (Fin c) /\
  cement_read (map (fun s => (s, lines s (fst q))) seeds) (snd q) c.
Proof.
  intros HS ND. destruct (cem_sample_read (map (fun s => (s, lines s (fst q))) seeds) (snd q)) as (c & Ec & R).
  - destruct seeds; [congruence|discriminate].
  - rewrite map_map. exact ND.
  - exists c. split; [|exact R]. rewrite !map_map in Ec. exact Ec.
Qed.
End Est.
Lemma sample_nan ss b a0 l : QI_cem_sample ss b (map Fin (a0 :: l)) NaN = Raise ValueError.
Proof.
  unfold QI_cem_sample. cbn [map]. change (last (Fin a0 :: map Fin l) (Fin a0)) with (last (map Fin (a0 :: l)) (Fin a0)). rewrite last_map. unfold fleb. cbn [fcmp].
  change (fmask (fun x => fltb x NaN) (Fin a0 :: map Fin l)) with (fmask (fun x => fltb x NaN) (map Fin (a0 :: l))).
  rewrite (fmask_fin _ (fun _ => false)) by reflexivity. rewrite (filter_none (fun _ : R => false)) by reflexivity. reflexivity.
Qed.
Lemma sample_list ss a0 l v : a0 < v -> v < last (a0 :: l) a0 -> QI_cem_sample ss true (map Fin (a0 :: l)) (Fin v) = Raise TypeError.
Proof.
  intros H0 H1. unfold QI_cem_sample. cbn [map]. change (Fin a0 :: map Fin l) with (map Fin (a0 :: l)). rewrite last_map. unfold fleb. cbn [fcmp].
  rewrite (Rleb_false v), (Rleb_false _ v) by assumption.
  rewrite (fmask_fin _ (fun z => Rltb z v)) by reflexivity. cbn [call].
  destruct (np_max_fin (filter (fun z => Rltb z v) (a0 :: l))) as (a & -> & _).
  { cbn [filter]. rewrite Rltb_true by exact H0. congruence. }
  cbn [call]. rewrite (fmask_fin _ (fun z => Rltb v z)) by reflexivity. cbn [call].
  destruct (np_min_fin (filter (fun z => Rltb v z) (a0 :: l))) as (b & -> & _); [|reflexivity].
  intros E. assert (X : In (last (a0 :: l) a0) []); [|destruct X]. rewrite <- E. apply filter_In. split; [apply last_In; congruence|apply Rltb_true; exact H1].
Qed.

(** ** Friable sand against the increasing-cement bound *)
Lemma soft_line K0 G0 phic Cn sg f b Ks Gs : 0 < K0 -> 0 < G0 -> 0 < phic < 1 -> 0 < Cn -> 0 < sg -> 0 <= f <= 1 -> 0 < b <= phic ->
  GM_softsand NumPy (Fin K0) (Fin G0) (Fin b) (Fin phic) (Fin Cn) (Fin sg) (Fin f) = Ret (Fin Ks, Fin Gs) -> Ks < K0 -> Gs < G0 ->
  0 < Ks /\ 0 < Gs /\ exists z z', 0 < z <= zK G0 /\ 0 < z' <= zG K0 G0 /\ forall phi, 0 < phi <= b ->
    GM_softsand NumPy (Fin K0) (Fin G0) (Fin phi) (Fin phic) (Fin Cn) (Fin sg) (Fin f) =
    Ret (Fin (walpole z (phi / b) Ks K0), Fin (walpole z' (phi / b) Gs G0)).
Proof.
  intros HK HG Hp HC Hs Hf Hb E LK LG. rewrite softsand_fin in E by (assumption || lra). cbv zeta in E.
  set (K := cbrt (hertz_K3 K0 G0 phic Cn (sg / 1000))) in *. set (G := hertz_GK K0 G0 f * K) in *.
  assert (PK : 0 < K) by (apply cbrt_pos, K3_pos; lra).
  assert (PG : 0 < G) by (apply Rmult_lt_0_compat; [apply GK_pos; assumption|exact PK]).
  assert (Z1 := zK_pos G PG). assert (Z2 := zG_pos K G PK PG).
  assert (T : 0 < b / phic <= 1) by (split; [apply lt_div_iff|apply div_le_iff]; lra).
  injection E as <- <-.
  assert (LK' : K < K0).
  { destruct (Rlt_le_dec K K0) as [L|L]; [exact L|]. assert (X := walpole_between (zK G) (b / phic) K K0 ltac:(lra) ltac:(lra) ltac:(lra) L). lra. }
  assert (LG' : G < G0).
  { destruct (Rlt_le_dec G G0) as [L|L]; [exact L|]. assert (X := walpole_between (zG K G) (b / phic) G G0 ltac:(lra) ltac:(lra) ltac:(lra) L). lra. }
  assert (B1 := walpole_in (zK G) (b / phic) K K0 ltac:(lra) ltac:(lra) T). assert (B2 := walpole_in (zG K G) (b / phic) G G0 ltac:(lra) ltac:(lra) T).
  split; [lra|]. split; [lra|]. exists (zK G), (zG K G).
  split; [split; [lra|unfold zK; lra]|]. split; [split; [lra|apply zG_mono; lra]|].
  intros phi Hphi. rewrite softsand_fin by (assumption || lra). cbv zeta. fold K. fold G.
  assert (T' : 0 < phi / b <= 1) by (split; [apply lt_div_iff|apply div_le_iff]; lra).
  replace (phi / phic) with (phi / b * (b / phic)) by (field; lra). rewrite !walpole_comp by lra. reflexivity.
Qed.
Lemma vels_vs Kd G K D Kf Df phi vp vs rho : 0 <= G -> 0 < D * (1 - phi) + Df * phi ->
  Fluid_vels NumPy Kd (Fin G) K (Fin D) Kf (Fin Df) (Fin phi) = Ret (vp, vs, rho) -> vs = Fin (sqrt (G / (D * (1 - phi) + Df * phi)) * 1000).
Proof.
  intros HG HR H. unfold Fluid_vels in H. rewrite !fsub_fin, !fmul_fin, fadd_fin, bind_fin in H.
  apply call_inv in H as ((ks & gs) & E & H). apply Gassmann_G in E. subst gs. apply bind_inv in H. 
  rewrite fdiv_fin in H by lra. rewrite fsqrt_fin in H by (apply Rmult_le_pos; [lra|left; apply Rinv_0_lt_compat; lra]). rewrite fmul_fin, bind_fin in H. congruence.
Qed.

(** ** Template points *)
Lemma wood2_range s K1 K2 : 0 <= s <= 1 -> 0 < K2 -> K2 <= K1 -> K2 <= wood2 s K1 K2 <= K1.
Proof.
  intros Hs H2 H1. unfold wood2, Rdiv. assert (A : / K1 <= / K2) by (apply Rinv_le_contravar; lra).
  assert (B : 0 < / K1) by (apply Rinv_0_lt_compat; lra).
  assert (s * / K1 <= s * / K2) by (apply Rmult_le_compat_l; lra). assert ((1 - s) * / K1 <= (1 - s) * / K2) by (apply Rmult_le_compat_l; lra).
  assert (C : / K1 <= s * / K1 + (1 - s) * / K2 <= / K2) by lra. rewrite Rmult_1_l. split.
  - rewrite <- (Rinv_inv K2) at 1. apply Rinv_le_contravar; lra.
  - rewrite <- (Rinv_inv K1) at 2. apply Rinv_le_contravar; lra.
Qed.
Lemma wood2_pos s K1 K2 : 0 <= s <= 1 -> 0 < K1 -> 0 < K2 -> 0 < s / K1 + (1 - s) / K2.
Proof.
  intros Hs H1 H2. assert (0 < / K1) by (apply Rinv_0_lt_compat; lra). assert (0 < / K2) by (apply Rinv_0_lt_compat; lra). unfold Rdiv.
  destruct (Rle_lt_or_eq_dec 0 s) as [L|L]; [lra| |subst; lra].
  assert (0 < s * / K1) by (apply Rmult_lt_0_compat; lra). assert (0 <= (1 - s) * / K2) by (apply Rmult_le_pos; lra). lra.
Qed.
Lemma wood2_strict s s' K1 K2 : 0 <= s -> s < s' -> s' <= 1 -> 0 < K2 -> K2 < K1 -> wood2 s K1 K2 < wood2 s' K1 K2.
Proof.
  intros H0 H1 H2 H3 H4. unfold wood2, Rdiv. rewrite !Rmult_1_l.
  assert (A := wood2_pos s K1 K2 ltac:(lra) ltac:(lra) H3). assert (B := wood2_pos s' K1 K2 ltac:(lra) ltac:(lra) H3). unfold Rdiv in A, B.
  apply Rinv_lt_contravar; [apply Rmult_lt_0_compat; assumption|].
  assert (/ K1 < / K2) by (apply Rinv_lt_contravar; [apply Rmult_lt_0_compat|]; lra).
  assert (0 < (s' - s) * (/ K2 - / K1)) by (apply Rmult_lt_0_compat; lra). lra.
Qed.
Lemma rpt_eval Kd Gd K0 D0 Kb Db Khc Dhc phi s : 0 <= Kd < K0 -> 0 < Gd -> 0 < Kb <= K0 -> 0 < Khc <= K0 -> 0 < phi <= 1 -> 0 <= s <= 1 ->
  let rho := D0 * (1 - phi) + (s * Db + (1 - s) * Dhc) * phi in 0 < rho ->
  let M := gK Kd K0 (wood2 s Kb Khc) phi + 4/3 * Gd in
  QI_rpt_point (Fin Kd) (Fin Gd) (Fin K0) (Fin D0) (Fin Kb) (Fin Db) (Fin Khc) (Fin Dhc) (Fin phi) (Fin s) =
  Ret (Fin (sqrt (M / rho) * 1000 * rho), Fin (sqrt (M / rho) * 1000 / (sqrt (Gd / rho) * 1000))) /\
  Fluid_vels NumPy (Fin Kd) (Fin Gd) (Fin K0) (Fin D0) (Fin (wood2 s Kb Khc)) (Fin (s * Db + (1 - s) * Dhc)) (Fin phi) =
    Ret (Fin (sqrt (M / rho) * 1000), Fin (sqrt (Gd / rho) * 1000), Fin rho) /\
  0 < wood2 s Kb Khc <= K0 /\ 0 < M.
Proof.
  intros H1 H2 H3 H4 H5 H6 rho HR M.
  assert (W : 0 < wood2 s Kb Khc <= K0).
  { unfold wood2. assert (A := wood2_pos s Kb Khc ltac:(lra) ltac:(lra) ltac:(lra)). split; [apply Rdiv_lt_0_compat; lra|].
    apply div_le_iff; [exact A|]. apply Rmult_le_reg_l with (/ K0); [apply Rinv_0_lt_compat; lra|].
    rewrite <- Rmult_assoc, Rinv_l, Rmult_1_l, Rmult_1_r by lra. unfold Rdiv.
    assert (/ K0 <= / Kb) by (apply Rinv_le_contravar; lra). assert (/ K0 <= / Khc) by (apply Rinv_le_contravar; lra).
    assert (s * / K0 <= s * / Kb) by (apply Rmult_le_compat_l; lra). assert ((1 - s) * / K0 <= (1 - s) * / Khc) by (apply Rmult_le_compat_l; lra). lra. }
  assert (E := vels_eval NumPy Kd Gd K0 phi ltac:(lra) H1 H5 (wood2 s Kb Khc) D0 (s * Db + (1 - s) * Dhc) W ltac:(lra) HR). fold rho in E. fold M in E.
  assert (PM : 0 < M). { destruct (gK_range Kd K0 (wood2 s Kb Khc) phi ltac:(lra) W ltac:(lra) H5). unfold M. lra. }
  split; [|auto]. unfold QI_rpt_point. assert (A := wood2_pos s Kb Khc ltac:(lra) ltac:(lra) ltac:(lra)).
  rewrite fsub_fin, !fdiv_fin, fadd_fin by lra. rewrite fdiv_fin by lra. fold (wood2 s Kb Khc). rewrite bind_fin, !fmul_fin, fadd_fin, bind_fin, E. cbn [call].
  rewrite fmul_fin, bind_fin.
  assert (0 < sqrt (Gd / rho)) by (apply sqrt_lt_R0, Rdiv_lt_0_compat; lra). rewrite fdiv_fin by lra. reflexivity.
Qed.
Lemma ccG0_pos K0 G0 Kc Gc phic Cn : 0 < Kc -> 0 < Gc -> phic < 1 -> 0 < Cn -> 0 < ccG K0 G0 Kc Gc phic Cn 0.
Proof.
  intros H1 H2 H3 H4. unfold ccG, ccK, dnS, dnT, dnN3, dnT3. replace (0^2) with 0 by ring. rewrite !Rmult_0_r, !Rplus_0_l.
  assert (A : forall x y, 0 < Rpower x y) by (intros; apply exp_pos).
  assert (B : 0 < 9654 / 1000 * poisson K0 G0 ^ 2 + 4945 / 1000 * poisson K0 G0 + 31 / 10) by nra.
  apply Rplus_lt_0_compat; repeat apply Rmult_lt_0_compat; try lra; try apply A.
Qed.
