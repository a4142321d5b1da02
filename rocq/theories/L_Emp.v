(** * Lemmas about Emp.py. *)
From Coq Require Import Lra Lia Sorting.Sorted Permutation.
From Verif Require Import Fl M_Emp Spec Spec5 RealLemmas.
Open Scope R_scope.

Lemma fmask_fin (p : fl -> option bool) (q : R -> bool) zs : (forall z, p (Fin z) = Some (q z)) -> fmask p (map Fin zs) = Ret (map Fin (filter q zs)).
Proof.
  intros H. induction zs as [|z zs IH]; [reflexivity|]. cbn [map fmask filter]. rewrite H, IH. cbn [call]. destruct (q z); reflexivity.
Qed.
Lemma fmask_app p a b ra rb : fmask p a = Ret ra -> fmask p b = Ret rb -> fmask p (a ++ b) = Ret (ra ++ rb).
Proof.
  revert ra. induction a as [|x a IH]; cbn [app fmask]; intros ra.
  - intros [= <-] ->. reflexivity.
  - destruct (p x) as [c|]; [|discriminate]. destruct (fmask p a) as [r| |]; cbn [call]; try discriminate. intros [= <-] Hb. rewrite (IH r eq_refl Hb). destruct c; reflexivity.
Qed.
Definition ltb_R (c z : R) := Rltb z c.
Lemma Rltb_spec a b : Rltb a b = true <-> a < b.
Proof. unfold Rltb. destruct (Rlt_dec a b); split; auto; discriminate. Qed.
Lemma Rleb_spec a b : Rleb a b = true <-> a <= b.
Proof. unfold Rleb. destruct (Rle_dec a b); split; auto; discriminate. Qed.
Lemma Rltb_negb a b : Rltb b a = negb (Rleb a b).
Proof. unfold Rltb, Rleb. destruct (Rlt_dec b a), (Rle_dec a b); try reflexivity; lra. Qed.
Lemma Rleb_negb a b : Rleb b a = negb (Rltb a b).
Proof. unfold Rltb, Rleb. destruct (Rle_dec b a), (Rlt_dec a b); try reflexivity; lra. Qed.

(** Splitting a list by a predicate. *)
Lemma filter_perm {A} (p : A -> bool) l : Permutation (filter p l ++ filter (fun x => negb (p x)) l) l.
Proof.
  induction l as [|x l IH]; [constructor|]. cbn [filter]. destruct (p x); cbn [negb].
  - cbn. constructor. exact IH.
  - apply Permutation_sym, Permutation_cons_app, Permutation_sym, IH.
Qed.
Lemma filter_all {A} (p : A -> bool) l : (forall x, In x l -> p x = true) -> filter p l = l.
Proof. induction l as [|x l IH]; intros H; [reflexivity|]. cbn. rewrite H by (left; auto). f_equal. apply IH. intros; apply H; right; auto. Qed.
Lemma filter_none {A} (p : A -> bool) l : (forall x, In x l -> p x = false) -> filter p l = [].
Proof. induction l as [|x l IH]; intros H; [reflexivity|]. cbn. rewrite H by (left; auto). apply IH. intros; apply H; right; auto. Qed.
Lemma filter_filter {A} (p q : A -> bool) l : filter p (filter q l) = filter (fun x => andb (q x) (p x)) l.
Proof. induction l as [|x l IH]; [reflexivity|]. cbn. destruct (q x); cbn; [destruct (p x); rewrite IH; reflexivity|exact IH]. Qed.
Lemma split_by {A} (p : A -> bool) s d : (forall x, In x s -> p x = true) -> (forall x, In x d -> p x = false) ->
  filter p (s ++ d) = s /\ filter (fun x => negb (p x)) (s ++ d) = d.
Proof.
  intros Hs Hd. rewrite !filter_app. rewrite (filter_all p s Hs), (filter_none p d Hd).
  rewrite (filter_none (fun x => negb (p x)) s), (filter_all (fun x => negb (p x)) d).
  - split; [apply app_nil_r|reflexivity].
  - intros x I. rewrite Hd; auto.
  - intros x I. rewrite Hs; auto.
Qed.
Lemma sorted_split c zs : StronglySorted Rle zs -> filter (fun z => Rleb z c) zs ++ filter (fun z => Rltb c z) zs = zs.
Proof.
  induction 1 as [|z zs S IH F]; [reflexivity|]. cbn [filter]. destruct (Rleb z c) eqn:E.
  - apply Rleb_spec in E. replace (Rltb c z) with false by (rewrite Rltb_negb; apply Rleb_spec in E; rewrite E; reflexivity). cbn. f_equal. exact IH.
  - assert (L : c < z) by (apply Rltb_spec; rewrite Rltb_negb, E; reflexivity). replace (Rltb c z) with true by (symmetry; apply Rltb_spec; auto).
    rewrite Forall_forall in F. rewrite filter_none, filter_all; [reflexivity| |].
    + intros x I. apply Rltb_spec. specialize (F x I). lra.
    + intros x I. specialize (F x I). destruct (Rleb x c) eqn:Q; auto. apply Rleb_spec in Q. lra.
Qed.
Lemma sorted_split' c zs : StronglySorted Rle zs -> filter (fun z => Rltb z c) zs ++ filter (fun z => Rleb c z) zs = zs.
Proof.
  induction 1 as [|z zs S IH F]; [reflexivity|]. cbn [filter]. destruct (Rltb z c) eqn:E.
  - replace (Rleb c z) with false by (rewrite Rleb_negb, E; reflexivity). cbn. f_equal. exact IH.
  - assert (L : c <= z) by (apply Rleb_spec; rewrite Rleb_negb, E; reflexivity). replace (Rleb c z) with true by (symmetry; apply Rleb_spec; auto).
    rewrite Forall_forall in F. rewrite filter_none, filter_all; [reflexivity| |].
    + intros x I. apply Rleb_spec. specialize (F x I). lra.
    + intros x I. specialize (F x I). destruct (Rltb x c) eqn:Q; auto. apply Rltb_spec in Q. lra.
Qed.
Lemma sorted_filter p zs : StronglySorted Rle zs -> StronglySorted Rle (filter p zs).
Proof.
  induction 1 as [|z zs S IH F]; [constructor|]. cbn. destruct (p z); [|exact IH]. constructor; [exact IH|].
  rewrite Forall_forall in *. intros x I. apply filter_In in I. apply F, I.
Qed.

(** yu_segment_trend *)
Definition yu_order (zs : list R) := filter (fun z => Rleb z 2630) zs ++ filter (fun z => Rltb 2630 z) zs.
Lemma yu_eval zs : Emp_yu_segment_trend (map Fin zs) = Ret (map Fin (map yu_trend (yu_order zs))).
Proof.
  unfold Emp_yu_segment_trend. rewrite (fmask_fin _ (fun z => Rleb z 2630)) by reflexivity. cbn [call].
  rewrite (fmask_fin _ (fun z => Rltb 2630 z)) by reflexivity. cbn [call]. unfold yu_order. rewrite !map_app, !map_map.
  f_equal. f_equal; apply map_ext_in; intros z I; apply filter_In in I; destruct I as [_ I]; unfold yu_trend; repeat fl1.
  - apply Rleb_spec in I. destruct (Rle_dec z 2630); [reflexivity|lra].
  - apply Rltb_spec in I. destruct (Rle_dec z 2630); [lra|reflexivity].
Qed.
Lemma yu_perm zs : Permutation (yu_order zs) zs.
Proof.
  unfold yu_order. rewrite (filter_ext (fun z => Rltb 2630 z) (fun z => negb (Rleb z 2630))); [apply filter_perm|]. intros; apply Rltb_negb.
Qed.
Lemma yu_incr z z' : z < z' -> yu_trend z < yu_trend z'.
Proof. intros L. unfold yu_trend. destruct (Rle_dec z 2630), (Rle_dec z' 2630); lra. Qed.
Lemma yu_inj z z' : yu_trend z = yu_trend z' -> z = z'.
Proof. intros E. destruct (Rtotal_order z z') as [L | [-> | L]]; [apply yu_incr in L; lra|reflexivity|apply yu_incr in L; lra]. Qed.
Lemma map_inj {A B} (f : A -> B) : (forall a b, f a = f b -> a = b) -> forall l l', map f l = map f l' -> l = l'.
Proof. intros H l. induction l as [|x l IH]; intros [|y l']; cbn; try discriminate; [reflexivity|]. intros [= E1 E2]. f_equal; [apply H, E1|apply IH, E2]. Qed.
Lemma fin_inj l l' : map Fin l = map Fin l' -> l = l'.
Proof. apply map_inj. intros a b [= E]. exact E. Qed.

(** Japsen *)
Definition japsen_order (zs : list R) :=
  filter (fun z => Rltb z 1393) zs ++ filter (fun z => Rleb 1393 z && Rltb z 2000)%bool zs
  ++ filter (fun z => Rleb 2000 z && Rltb z 3500)%bool zs ++ filter (fun z => Rleb 3500 z && Rltb z 5300)%bool zs.
Lemma japsen_eval zs : Emp_Japsen (map Fin zs) = Ret (map Fin (map japsen_trend (japsen_order zs))).
Proof.
  unfold Emp_Japsen. rewrite (fmask_fin _ (fun z => Rltb z 1393)) by reflexivity. cbn [call].
  rewrite (fmask_fin _ (fun z => Rleb 1393 z && Rltb z 2000)%bool) by reflexivity. cbn [call].
  rewrite (fmask_fin _ (fun z => Rleb 2000 z && Rltb z 3500)%bool) by reflexivity. cbn [call].
  rewrite (fmask_fin _ (fun z => Rleb 3500 z && Rltb z 5300)%bool) by reflexivity. cbn [call].
  unfold japsen_order. rewrite !map_app, !map_map.
  f_equal. repeat (match goal with |- (_ ++ _ = _ ++ _)%list => apply f_equal2 end); apply map_ext_in; intros z I; apply filter_In in I; destruct I as [_ I]; unfold japsen_trend; repeat fl1;
    rewrite ?andb_true_iff, ?Rltb_spec, ?Rleb_spec in I; destruct (Rlt_dec z 1393), (Rlt_dec z 2000), (Rlt_dec z 3500); try lra; reflexivity.
Qed.
Lemma japsen_sorted zs : StronglySorted Rle zs -> japsen_order zs = filter (fun z => Rltb z 5300) zs.
Proof.
  intros S. unfold japsen_order.
  assert (X : forall a b, a <= b -> forall l, StronglySorted Rle l ->
     filter (fun z => Rltb z a) l ++ filter (fun z => Rleb a z && Rltb z b)%bool l = filter (fun z => Rltb z b) l).
  { intros a b L l Sl. rewrite <- (sorted_split' a (filter (fun z => Rltb z b) l)) by (apply sorted_filter; auto). rewrite !filter_filter. f_equal; apply filter_ext; intros z.
    - destruct (Rltb z a) eqn:E; [|rewrite andb_false_r; reflexivity]. apply Rltb_spec in E. replace (Rltb z b) with true by (symmetry; apply Rltb_spec; lra). reflexivity.
    - apply andb_comm. }
  rewrite app_assoc, X by (auto; lra). rewrite app_assoc, X by (auto; lra). rewrite X by (auto; lra). reflexivity.
Qed.
Lemma japsen_perm zs : Permutation (japsen_order zs) (filter (fun z => Rltb z 5300) zs).
Proof.
  unfold japsen_order.
  assert (X : forall a b, a <= b -> forall l, Permutation (filter (fun z => Rltb z a) l ++ filter (fun z => Rleb a z && Rltb z b)%bool l) (filter (fun z => Rltb z b) l)).
  { intros a b L l. apply Permutation_trans with (2 := filter_perm (fun z => Rltb z a) (filter (fun z => Rltb z b) l)). rewrite !filter_filter.
    apply Permutation_app; apply Permutation_refl'; apply filter_ext; intros z.
    - destruct (Rltb z a) eqn:E; [|rewrite andb_false_r; reflexivity]. apply Rltb_spec in E. replace (Rltb z b) with true by (symmetry; apply Rltb_spec; lra). reflexivity.
    - rewrite <- Rleb_negb. apply andb_comm. }
  rewrite app_assoc. eapply Permutation_trans; [apply Permutation_app_tail, X; lra|]. rewrite app_assoc. eapply Permutation_trans; [apply Permutation_app_tail, X; lra|]. apply X; lra.
Qed.
Lemma japsen_incr z z' : z < z' -> japsen_trend z < japsen_trend z'.
Proof. intros L. unfold japsen_trend. destruct (Rlt_dec z 1393), (Rlt_dec z 2000), (Rlt_dec z 3500), (Rlt_dec z' 1393), (Rlt_dec z' 2000), (Rlt_dec z' 3500); lra. Qed.
(** ramm_porosity_segment *)
Lemma ramm_elem z : Emp_ramm_segment_elem (Fin z) = Ret (Fin (ramm_trend z)).
Proof.
  unfold Emp_ramm_segment_elem. repeat fl1. cbn [fltb fcmp]. unfold ramm_trend.
  replace (- (25/100000) * z) with (- 0.00025 * z) by lra. change (13/1000) with 0.013. unfold Rltb. destruct (Rlt_dec _ _) as [L | L]; f_equal; f_equal.
  - rewrite Rmin_right; lra.
  - rewrite Rmin_left; lra.
Qed.
Lemma ramm_list zs : Emp_ramm_porosity_segment (map Fin zs) = Ret (map Fin (map ramm_trend zs)).
Proof. induction zs as [|z zs IH]; [reflexivity|]. cbn [map Emp_ramm_porosity_segment]. rewrite ramm_elem. cbn [call]. rewrite IH. reflexivity. Qed.
Lemma ramm_decr z z' : z < z' -> ramm_trend z' < ramm_trend z.
Proof.
  intros L. unfold ramm_trend. assert (exp (- 0.00025 * z') < exp (- 0.00025 * z)) by (apply exp_increasing; lra).
  apply Rmin_glb_lt; [apply Rle_lt_trans with (1 := Rmin_l _ _)|apply Rle_lt_trans with (1 := Rmin_r _ _)]; lra.
Qed.
(** krief *)
Definition krief_c (x : R) := Rpower x (3 / x).
Lemma krief_fin m phi Kg Gg : phi < 1 ->
  Emp_krief m (Fin phi) (Fin Kg) (Fin Gg) = Ret (Fin (krief_c (1 - phi) * Kg - 2 / 3 * (krief_c (1 - phi) * Gg)), Fin (krief_c (1 - phi) * Gg), Fin (krief_c (1 - phi) * Kg)).
Proof.
  intros H. unfold Emp_krief. repeat fl1. rewrite fdiv_fin by lra. rewrite fpow_fin by lra. repeat (first [fl1 | rewrite fdiv_fin by lra]; cbv beta zeta).
  fold (krief_c (1 - phi)). reteq; field.
Qed.
Lemma krief_mono x y : 0 < x -> x < y -> y <= 1 -> krief_c x < krief_c y.
Proof.
  intros Hx L Hy. unfold krief_c, Rpower. apply exp_increasing. assert (L1 : ln x < ln y) by (apply ln_increasing; auto).
  assert (L2 : ln y <= 0). { rewrite <- ln_1. destruct (Req_dec y 1) as [-> | N]; [lra|left; apply ln_increasing; lra]. }
  assert (I : / y < / x) by (apply Rinv_lt_contravar; [apply Rmult_lt_0_compat|]; lra). assert (0 < / y) by (apply Rinv_0_lt_compat; lra). unfold Rdiv. nra.
Qed.
Lemma krief_1 : krief_c 1 = 1.
Proof. unfold krief_c, Rpower. rewrite ln_1, Rmult_0_r. apply exp_0. Qed.
Lemma krief_pos x : 0 < krief_c x.
Proof. apply exp_pos. Qed.
Lemma krief_le3 x : 0 < x <= 1 -> krief_c x <= x^3.
Proof.
  intros H. unfold krief_c. rewrite <- (Rpower_pow 3) by lra. unfold Rpower. replace (INR 3) with 3 by (cbn; lra).
  assert (L2 : ln x <= 0). { rewrite <- ln_1. destruct (Req_dec x 1) as [-> | N]; [lra|left; apply ln_increasing; lra]. }
  assert (3 <= 3 / x) by (apply le_div_iff; lra). destruct (Rle_lt_or_eq_dec (3 / x * ln x) (3 * ln x)) as [Q | ->]; [nra|left; apply exp_increasing; auto|lra].
Qed.
(** esti_VS *)
Definition gc_mix (a b v : R) := 0.5 * ((1 - v) * a + v * b + 1 / ((1 - v) / a + v / b)).
Lemma gc_den a b v : 0 < b -> b < a -> 0 <= v <= 1 -> 0 < (1 - v) / a + v / b /\ (1 - v) / a + v / b = ((1 - v) * b + v * a) / (a * b) /\ 0 < (1 - v) * b + v * a.
Proof.
  intros Hb L Hv. assert (E : (1 - v) / a + v / b = ((1 - v) * b + v * a) / (a * b)) by (field; lra). assert (0 < (1 - v) * b + v * a) by nra.
  split; [|split; auto]. rewrite E. apply Rdiv_lt_0_compat; auto. apply Rmult_lt_0_compat; lra.
Qed.
Lemma gc_harm a b v : 0 < b -> b < a -> 0 <= v <= 1 -> b <= 1 / ((1 - v) / a + v / b) <= (1 - v) * a + v * b.
Proof.
  intros Hb L Hv. destruct (gc_den a b v Hb L Hv) as (D & E & N). rewrite E.
  replace (1 / (((1 - v) * b + v * a) / (a * b))) with (a * b / ((1 - v) * b + v * a)) by (field; repeat split; lra).
  split; [apply le_div_iff|apply div_le_iff]; auto.
  - assert (0 <= b * ((1 - v) * (a - b))) by (apply Rmult_le_pos; [lra|apply Rmult_le_pos; lra]). lra.
  - assert (0 <= (1 - v) * v * (a - b)^2) by (apply Rmult_le_pos; [apply Rmult_le_pos; lra|apply pow2_ge_0]). lra.
Qed.
Lemma gc_mix_bnd a b v : 0 < b -> b < a -> 0 <= v <= 1 -> b <= gc_mix a b v <= a.
Proof. intros Hb L Hv. assert (H := gc_harm a b v Hb L Hv). unfold gc_mix. assert (b <= (1 - v) * a + v * b <= a) by nra. lra. Qed.
Lemma gc_mix_v a b v v' : 0 < b -> b < a -> 0 <= v -> v < v' -> v' <= 1 -> gc_mix a b v' < gc_mix a b v.
Proof.
  intros Hb L Hv Lv Hv'. destruct (gc_den a b v Hb L ltac:(lra)) as (D & E & N). destruct (gc_den a b v' Hb L ltac:(lra)) as (D' & E' & N').
  unfold gc_mix. assert (A : (1 - v') * a + v' * b < (1 - v) * a + v * b) by nra.
  assert (B : 1 / ((1 - v') / a + v' / b) <= 1 / ((1 - v) / a + v / b)). { apply Rmult_le_compat_l; [lra|]. apply Rinv_le_contravar; auto. rewrite E, E'. apply Rmult_le_compat_r; [left; apply Rinv_0_lt_compat, Rmult_lt_0_compat; lra|]. nra. }
  lra.
Qed.
Lemma gc_mix_ab a b a' b' v : 0 < b -> b < a -> b' < a' -> a < a' -> b < b' -> 0 <= v <= 1 -> gc_mix a b v < gc_mix a' b' v.
Proof.
  intros Hb L L' La Lb Hv. destruct (gc_den a b v Hb L Hv) as (D & E & N). destruct (gc_den a' b' v ltac:(lra) L' Hv) as (D' & E' & N').
  unfold gc_mix. assert (A : (1 - v) * a + v * b < (1 - v) * a' + v * b').
  { assert (X : 0 <= v * (b' - b)) by (apply Rmult_le_pos; lra). destruct (Req_dec v 1) as [-> | Q]; [lra|]. assert (0 < (1 - v) * (a' - a)) by (apply Rmult_lt_0_compat; lra). lra. }
  assert (I1 : / a' < / a) by (apply Rinv_lt_contravar; [apply Rmult_lt_0_compat; lra|lra]). assert (I2 : / b' < / b) by (apply Rinv_lt_contravar; [apply Rmult_lt_0_compat; lra|lra]).
  assert (B : 1 / ((1 - v) / a + v / b) <= 1 / ((1 - v) / a' + v / b')). { apply Rmult_le_compat_l; [lra|]. apply Rinv_le_contravar; auto. unfold Rdiv. nra. }
  lra.
Qed.
Lemma gc_lines vp : 1.127 < vp -> 0 < gc_shale vp /\ gc_shale vp < gc_sand vp /\ gc_sand vp < vp.
Proof. unfold gc_shale, gc_sand. lra. Qed.
Lemma esti_fin m Vp v : 1127 < Vp -> 0 <= v <= 1 ->
  Emp_esti_VS m (Fin Vp) (Fin v) = Ret (Fin (1000 * gc_mix (gc_sand (Vp / 1000)) (gc_shale (Vp / 1000)) v)).
Proof.
  intros H Hv. destruct (gc_lines (Vp / 1000)) as (L1 & L2 & _); [lra|]. destruct (gc_den _ _ v L1 L2 Hv) as (D & _).
  unfold Emp_esti_VS. repeat fl1. rewrite !(fdiv_fin m _ 1000) by lra. repeat fl1.
  replace (80416 / 100000 * Vp / 1000 - 85588 / 100000) with (gc_sand (Vp / 1000)) by (unfold gc_sand; lra).
  replace (76969 / 100000 * Vp / 1000 - 86735 / 100000) with (gc_shale (Vp / 1000)) by (unfold gc_shale; lra).
  set (a := gc_sand _) in *. set (b := gc_shale _) in *. rewrite !fdiv_fin by lra. repeat fl1. rewrite fdiv_fin by lra. repeat fl1. reteq. unfold gc_mix. lra.
Qed.
