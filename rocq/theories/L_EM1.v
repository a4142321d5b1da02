(** * Mixing laws of EM.py: VRH, critical porosity, Hashin-Shtrikman, Mori-Tanaka. *)
From Verif Require Import Fl M_Utils M_EM Spec RealLemmas L_Lists L_Utils.
From Coq Require Import Permutation.
Open Scope R_scope.

(** ** VRH *)
Lemma map_pairs_l {A B C} (f : A -> C) (a : list A) (b : list B) : length a = length b ->
  map f a = map (fun p => f (fst p)) (combine a b).
Proof. intros H. destruct (combine_fst_snd a b H) as [E _]. rewrite <- E at 1. apply map_map. Qed.
Lemma map_pairs_r {A B C} (f : B -> C) (a : list A) (b : list B) : length a = length b ->
  map f b = map (fun p => f (snd p)) (combine a b).
Proof. intros H. destruct (combine_fst_snd a b H) as [_ E]. rewrite <- E at 1. apply map_map. Qed.
Lemma sumf_fst (L : list (R * R)) : sumf fst L = sumR (map fst L).
Proof. reflexivity. Qed.

Lemma VRH_len (ws Ms : list fl) : length ws <> length Ms -> EM_VRH ws Ms = Raise ValueError.
Proof.
  intros H. unfold EM_VRH. destruct (Nat.eqb_spec (length ws) (length Ms)); [contradiction|]. reflexivity.
Qed.
Lemma VRH_fin (L : list (R * R)) :
  Forall (fun p => 0 <= fst p) L -> 0 < sumf fst L -> Forall (fun p => 0 < snd p) L ->
  EM_VRH (map (fun p => Fin (fst p)) L) (map (fun p => Fin (snd p)) L) =
  let v := sumf (fun p => fst p * snd p) L in
  let r := / sumf (fun p => fst p * (1 / snd p)) L in
  Ret (Fin v, Fin r, Fin ((r + v) / 2)).
Proof.
  intros Hw Hs HM. unfold EM_VRH. rewrite !map_length, Nat.eqb_refl. cbn [negb].
  rewrite fdot_map, map_map.
  rewrite (map_fin_ext (fun x : R * R => fdiv NumPy (Fin 1) (Fin (snd x))) (fun p => 1 / snd p)).
  2:{ eapply Forall_impl; [|exact HM]. cbv beta. intros p Hp. apply fdiv_fin. lra. }
  rewrite fdot_map.
  assert (0 < sumf (fun p => fst p * (1 / snd p)) L).
  { apply sumf_pos_mul; auto. eapply Forall_impl; [|exact HM]. cbv beta. intros p Hp.
    apply Rdiv_lt_0_compat; lra. }
  fls. cbv zeta. reteq; field; lra.
Qed.

Lemma pairs_of (ws Ms : list R) : length ws = length Ms -> exists L, ws = map fst L /\ Ms = map snd L.
Proof. intros H. exists (combine ws Ms). destruct (combine_fst_snd ws Ms H). auto. Qed.
Lemma wsum_inv_pairs (L : list (R * R)) :
  wsum (map fst L) (map (fun x => / snd x) L) = sumf (fun p => fst p * (1 / snd p)) L.
Proof.
  induction L as [|x L IH]; [reflexivity|]. cbn [map wsum]. rewrite IH, sumf_cons. unfold Rdiv. f_equal. ring.
Qed.

(** Everything about VRH with positive moduli. *)
Lemma VRH_main (ws Ms : list R) : length ws = length Ms -> fractions ws -> Forall (Rlt 0) Ms ->
  exists v r h, EM_VRH (map Fin ws) (map Fin Ms) = Ret (Fin v, Fin r, Fin h) /\
    v = wsum ws Ms /\ r = / wsum ws (map Rinv Ms) /\ h = (v + r) / 2 /\
    0 < r /\ r <= h <= v /\ between_some Ms v /\ between_some Ms r.
Proof.
  intros Hl [Hw Hs] HM. destruct (pairs_of ws Ms Hl) as (L & -> & ->).
  rewrite !map_map. rewrite Forall_map in Hw, HM.
  assert (Hs' : sumf fst L = 1) by exact Hs.
  rewrite VRH_fin by (auto; lra). cbv zeta.
  do 3 eexists. split; [reflexivity|].
  rewrite wsum_pairs, wsum_inv_pairs.
  set (v := sumf (fun p => fst p * snd p) L). set (q := sumf (fun p => fst p * (1 / snd p)) L).
  assert (Hq : 0 < q).
  { apply sumf_pos_mul; auto; [lra|]. eapply Forall_impl; [|exact HM]. cbv beta. intros p Hp.
    apply Rdiv_lt_0_compat; lra. }
  assert (Hr : 0 < / q) by (apply Rinv_0_lt_compat, Hq).
  assert (Hle : / q <= v).
  { assert (C := cauchy_harm fst snd L Hw ltac:(lra) HM). fold v q in C. rewrite Hs' in C.
    apply Rmult_le_reg_r with q; [exact Hq|]. rewrite Rinv_l by lra. lra. }
  assert (Bv : between_some (map snd L) v).
  { split; unfold above_some, below_some; rewrite Exists_map.
    - apply (wmean_below fst snd L v Hw); [lra|]. rewrite Hs'. fold v. ring.
    - apply (wmean_above fst snd L v Hw); [lra|]. rewrite Hs'. fold v. ring. }
  assert (Br : between_some (map snd L) (/ q)).
  { split; unfold above_some, below_some; rewrite Exists_map.
    - assert (X := wmean_above fst (fun p => 1 / snd p) L q Hw ltac:(lra) ltac:(rewrite Hs'; fold q; ring)).
      apply Exists_exists in X. destruct X as (p & Hp & X). apply Exists_exists. exists p; split; auto.
      rewrite Forall_forall in HM. specialize (HM p Hp). cbv beta in HM.
      replace (snd p) with (/ (1 / snd p)) by (field; lra). apply Rinv_le_contravar; auto.
    - assert (X := wmean_below fst (fun p => 1 / snd p) L q Hw ltac:(lra) ltac:(rewrite Hs'; fold q; ring)).
      apply Exists_exists in X. destruct X as (p & Hp & X). apply Exists_exists. exists p; split; auto.
      rewrite Forall_forall in HM. specialize (HM p Hp). cbv beta in HM.
      replace (snd p) with (/ (1 / snd p)) by (field; lra). apply Rinv_le_contravar; auto.
      apply Rdiv_lt_0_compat; lra. }
  repeat split; auto; try (apply Bv); try (apply Br); lra.
Qed.

(** Order of the phases is irrelevant. *)
Lemma VRH_perm (L L' : list (R * R)) : Permutation L L' ->
  Forall (fun p => 0 <= fst p) L -> 0 < sumf fst L -> Forall (fun p => 0 < snd p) L ->
  EM_VRH (map (fun p => Fin (fst p)) L) (map (fun p => Fin (snd p)) L) =
  EM_VRH (map (fun p => Fin (fst p)) L') (map (fun p => Fin (snd p)) L').
Proof.
  intros P H1 H2 H3. rewrite VRH_fin by auto.
  rewrite VRH_fin.
  - cbv zeta. rewrite (sumf_perm (fun p => fst p * snd p) _ _ P), (sumf_perm (fun p => fst p * (1 / snd p)) _ _ P).
    reflexivity.
  - eapply Permutation_Forall; eauto.
  - rewrite <- (sumf_perm fst _ _ P); auto.
  - eapply Permutation_Forall; eauto.
Qed.

(** Monotone in every modulus. Triples (fraction, modulus, larger modulus). *)
Lemma VRH_mono (L : list (R * R * R)) :
  Forall (fun p => 0 <= fst (fst p)) L -> sumf (fun p => fst (fst p)) L = 1 ->
  Forall (fun p => 0 < snd (fst p) <= snd p) L ->
  exists v r h v' r' h',
    EM_VRH (map (fun p => Fin (fst (fst p))) L) (map (fun p => Fin (snd (fst p))) L) = Ret (Fin v, Fin r, Fin h) /\
    EM_VRH (map (fun p => Fin (fst (fst p))) L) (map (fun p => Fin (snd p)) L) = Ret (Fin v', Fin r', Fin h') /\
    v <= v' /\ r <= r' /\ h <= h'.
Proof.
  intros Hw Hs HM.
  assert (E1 := VRH_fin (map (fun p => (fst (fst p), snd (fst p))) L)).
  assert (E2 := VRH_fin (map (fun p => (fst (fst p), snd p)) L)).
  rewrite !map_map in E1, E2. rewrite !Forall_map in E1, E2. unfold sumf in E1, E2. rewrite !map_map in E1, E2.
  cbn [fst snd] in E1, E2.
  assert (HM1 : Forall (fun p => 0 < snd (fst p)) L) by (eapply Forall_impl; [|exact HM]; cbv beta; intros; lra).
  assert (HM2 : Forall (fun p => 0 < snd p) L) by (eapply Forall_impl; [|exact HM]; cbv beta; intros; lra).
  specialize (E1 Hw ltac:(unfold sumf in Hs; lra) HM1). specialize (E2 Hw ltac:(unfold sumf in Hs; lra) HM2).
  cbv zeta in E1, E2.
  change (sumR (map ?f L)) with (sumf f L) in E1, E2.
  do 6 eexists. split; [exact E1|]. split; [exact E2|].
  assert (V : sumf (fun p => fst (fst p) * snd (fst p)) L <= sumf (fun p => fst (fst p) * snd p) L).
  { apply sumf_le. rewrite Forall_forall in *. intros p Hp. specialize (HM p Hp); specialize (Hw p Hp). cbv beta in *.
    apply Rmult_le_compat_l; lra. }
  assert (Rr : / sumf (fun p => fst (fst p) * (1 / snd (fst p))) L <= / sumf (fun p => fst (fst p) * (1 / snd p)) L).
  { apply Rinv_le_contravar.
    - apply sumf_pos_mul; auto; [unfold sumf in *; lra|]. eapply Forall_impl; [|exact HM2]. cbv beta. intros; pos.
    - apply sumf_le. rewrite Forall_forall in *. intros p Hp. specialize (HM p Hp); specialize (Hw p Hp). cbv beta in *.
      apply Rmult_le_compat_l; [lra|]. unfold Rdiv. rewrite !Rmult_1_l. apply Rinv_le_contravar; lra. }
  repeat split; auto. lra.
Qed.
Lemma VRH_equal ws M : fractions ws -> 0 < M ->
  EM_VRH (map Fin ws) (map (fun _ => Fin M) ws) = Ret (Fin M, Fin M, Fin M).
Proof.
  intros [Hw Hs] HM.
  assert (E := VRH_fin (map (fun w => (w, M)) ws)). rewrite !map_map, !Forall_map in E.
  unfold sumf in E. rewrite !map_map in E. cbn [fst snd] in E.
  assert (HM1 : Forall (fun _ : R => 0 < M) ws) by (apply Forall_forall; auto).
  rewrite map_id in E. specialize (E Hw ltac:(lra) HM1). change (map Fin ws) with (map (fun x => Fin x) ws). rewrite E. cbv zeta.
  assert (S1 : sumR (map (fun x => x * M) ws) = M).
  { change (sumf (fun x => x * M) ws = M).
    rewrite (sumf_ext_all (fun x => x * M) (fun x => M * x)) by (intros; ring). rewrite sumf_scal.
    unfold sumf. rewrite map_id, Hs. ring. }
  assert (S2 : sumR (map (fun x => x * (1 / M)) ws) = 1 / M).
  { change (sumf (fun x => x * (1/M)) ws = 1/M).
    rewrite (sumf_ext_all (fun x => x * (1/M)) (fun x => (1/M) * x)) by (intros; ring). rewrite sumf_scal.
    unfold sumf. rewrite map_id, Hs. ring. }
  rewrite S1, S2. reteq; field; lra.
Qed.

(** A phase of zero modulus. *)
Lemma fsum_inf (L1 L2 : list R) : fsum (map Fin L1 ++ Inf :: map Fin L2) = Inf.
Proof.
  assert (F : forall L, exists r, fsum (map Fin L) = Fin r).
  { induction L as [|x L [r IH]]; [eexists; reflexivity|]. cbn. rewrite IH. eexists; reflexivity. }
  induction L1 as [|x L1 IH]; cbn.
  - destruct (F L2) as [r ->]. reflexivity.
  - rewrite IH. reflexivity.
Qed.
Lemma fsum_nan (L1 L2 : list R) : fsum (map Fin L1 ++ NaN :: map Fin L2) = NaN.
Proof.
  assert (F : forall L, exists r, fsum (map Fin L) = Fin r).
  { induction L as [|x L [r IH]]; [eexists; reflexivity|]. cbn. rewrite IH. eexists; reflexivity. }
  induction L1 as [|x L1 IH]; cbn.
  - destruct (F L2) as [r ->]. reflexivity.
  - rewrite IH. reflexivity.
Qed.
Lemma VRH_zero (L1 L2 : list (R * R)) w :
  Forall (fun p => 0 < snd p) L1 -> Forall (fun p => 0 < snd p) L2 ->
  let L := L1 ++ (w, 0) :: L2 in
  let v := sumf (fun p => fst p * snd p) L in
  (0 < w -> EM_VRH (map (fun p => Fin (fst p)) L) (map (fun p => Fin (snd p)) L) = Ret (Fin v, Fin 0, Fin (v/2))) /\
  (w = 0 -> EM_VRH (map (fun p => Fin (fst p)) L) (map (fun p => Fin (snd p)) L) = Ret (Fin v, NaN, NaN)).
Proof.
  intros H1 H2 L v.
  assert (D : fdot (map (fun p : R * R => Fin (fst p)) L)
     (map (fun x => fdiv NumPy (Fin 1) x) (map (fun p => Fin (snd p)) L)) =
     fsum (map Fin (map (fun p => fst p * (1 / snd p)) L1) ++ fmul (Fin w) Inf ::
           map Fin (map (fun p => fst p * (1 / snd p)) L2))).
  { unfold fdot. rewrite map_map, fmap2_map. unfold L. rewrite map_app. cbn [map]. cbn [fst snd].
    rewrite !map_map. f_equal. f_equal; [|f_equal].
    - apply map_ext_in. intros p Hp. rewrite Forall_forall in H1. specialize (H1 p Hp). cbv beta in H1.
      rewrite fdiv_fin by lra. reflexivity.
    - rewrite fdiv_zero_np by lra. reflexivity.
    - apply map_ext_in. intros p Hp. rewrite Forall_forall in H2. specialize (H2 p Hp). cbv beta in H2.
      rewrite fdiv_fin by lra. reflexivity. }
  split; intros Hw; unfold EM_VRH; rewrite !map_length, Nat.eqb_refl; cbn [negb]; rewrite D, fdot_map; fold v.
  - rewrite fmul_inf_r by lra. rewrite fsum_inf, fdiv_inf. fls. reteq; field.
  - subst w. assert (Z : fmul (Fin 0) Inf = NaN) by (cbn; destruct (Req_EM_T 0 0); congruence).
    rewrite Z, fsum_nan. cbn. reteq.
Qed.

(** ** Critical porosity *)
Lemma cripor_eval m K0 G0 phi phic : phic <> 0 ->
  EM_cripor m (Fin K0) (Fin G0) (Fin phi) (Fin phic) =
  Ret (Fin (K0 * (1 - phi / phic)), Fin (G0 * (1 - phi / phic))).
Proof. intros H. unfold EM_cripor. fls. reflexivity. Qed.
Lemma cripor_zero K0 G0 phi : EM_cripor PyFloat (Fin K0) (Fin G0) (Fin phi) (Fin 0) = Raise ZeroDivisionError.
Proof. unfold EM_cripor. rewrite fdiv_zero_py_fin. reflexivity. Qed.
Lemma cripor_facts m K0 G0 phic : 0 < phic -> 0 < K0 -> 0 < G0 ->
  exists Kd Gd : R -> R,
   (forall phi, EM_cripor m (Fin K0) (Fin G0) (Fin phi) (Fin phic) = Ret (Fin (Kd phi), Fin (Gd phi))) /\
   Kd 0 = K0 /\ Gd 0 = G0 /\ Kd phic = 0 /\ Gd phic = 0 /\
   (forall p q, p < q -> Kd q < Kd p /\ Gd q < Gd p) /\
   (forall p q t, Kd ((1 - t) * p + t * q) = (1 - t) * Kd p + t * Kd q) /\
   (forall p, Kd p * G0 = Gd p * K0) /\
   (forall p, phic < p -> Kd p < 0 /\ Gd p < 0).
Proof.
  intros H HK HG. exists (fun phi => K0 * (1 - phi / phic)), (fun phi => G0 * (1 - phi / phic)).
  split; [intros; apply cripor_eval; lra|].
  assert (M : forall p q, p < q -> p / phic < q / phic).
  { intros. apply Rmult_lt_compat_r; auto. apply Rinv_0_lt_compat; auto. }
  repeat split; intros; try (field; lra); try (specialize (M _ _ H0); nra).
  - assert (X := M _ _ H0). replace (phic / phic) with 1 in X by (field; lra). nra.
  - assert (X := M _ _ H0). replace (phic / phic) with 1 in X by (field; lra). nra.
Qed.
Lemma cripor_reuss_spec M0 Mf phic : 0 < M0 -> 0 < Mf -> 0 <= phic <= 1 ->
  exists r, EM_cripor_reuss (Fin M0) (Fin Mf) (Fin phic) false = Ret (Fin r) /\
    EM_cripor_reuss (Fin M0) (Fin Mf) (Fin phic) true = Ret (Fin ((1 - phic) * M0 + phic * Mf)) /\
    1 / r = (1 - phic) / M0 + phic / Mf /\ Rmin M0 Mf <= r <= Rmax M0 Mf.
Proof.
  intros H0 Hf Hp.
  assert (E := VRH_fin [(1 - phic, M0); (phic, Mf)]).
  cbn [map fst snd] in E. unfold sumf in E. cbn [map sumR fst snd] in E.
  assert (E' := E ltac:(repeat apply Forall_cons; cbn; try apply Forall_nil; lra) ltac:(lra)
     ltac:(repeat apply Forall_cons; cbn; try apply Forall_nil; lra)).
  assert (P : 0 < (1 - phic) * (1 / M0) + (phic * (1 / Mf) + 0)).
  { destruct (Req_EM_T phic 0) as [->|N].
    - rewrite Rminus_0_r. assert (0 < 1 / M0) by pos. lra.
    - assert (0 < phic * (1 / Mf)) by (apply Rmult_lt_0_compat; [lra|pos]).
      assert (0 <= (1 - phic) * (1/M0)) by (apply Rmult_le_pos; [lra|left; pos]). lra. }
  eexists. split; [|split; [|split]].
  - unfold EM_cripor_reuss. fls. rewrite E'. cbv zeta. fls. cbn [negb]. reflexivity.
  - unfold EM_cripor_reuss. fls. rewrite E'. cbv zeta. fls. cbn [negb]. reteq. ring.
  - field. split; [lra|]. split; [lra|]. intros N.
    replace ((1 - phic) * (1 / M0) + (phic * (1 / Mf) + 0)) with (((1 - phic) * Mf + phic * M0) / (M0 * Mf)) in P by (field; lra).
    rewrite N in P. unfold Rdiv in P. lra.
  - set (q := (1 - phic) * (1 / M0) + (phic * (1 / Mf) + 0)) in *.
    assert (A : forall x, 0 < x -> x <= M0 -> x <= Mf -> x <= / q).
    { intros x Hx H1 H2. replace x with (/ (1 / x)) by (field; lra). apply Rinv_le_contravar; [exact P|].
      unfold q. assert (1 / M0 <= 1 / x) by (apply Rmult_le_compat_l; [lra|apply Rinv_le_contravar; lra]).
      assert (1 / Mf <= 1 / x) by (apply Rmult_le_compat_l; [lra|apply Rinv_le_contravar; lra]). nra. }
    assert (B : forall x, 0 < x -> M0 <= x -> Mf <= x -> / q <= x).
    { intros x Hx H1 H2. replace x with (/ (1 / x)) by (field; lra). apply Rinv_le_contravar; [pos|].
      unfold q. assert (1 / x <= 1 / M0) by (apply Rmult_le_compat_l; [lra|apply Rinv_le_contravar; lra]).
      assert (1 / x <= 1 / Mf) by (apply Rmult_le_compat_l; [lra|apply Rinv_le_contravar; lra]). nra. }
    split; [apply A | apply B].
    + apply Rmin_glb_lt; auto. + apply Rmin_l. + apply Rmin_r.
    + apply Rlt_le_trans with M0; auto; apply Rmax_l. + apply Rmax_l. + apply Rmax_r.
Qed.

(** ** Walpole's form *)
Lemma wal_den f a b z : 0 <= f <= 1 -> 0 < a + z -> 0 < b + z -> 0 < (1 - f) * a + f * b + z.
Proof.
  intros Hf Ha Hb. replace ((1 - f) * a + f * b + z) with ((1 - f) * (a + z) + f * (b + z)) by ring.
  destruct (Req_EM_T f 0) as [->|N]; [lra|].
  assert (0 < f * (b + z)) by (apply Rmult_lt_0_compat; lra).
  assert (0 <= (1 - f) * (a + z)) by (apply Rmult_le_pos; lra). lra.
Qed.
Lemma walpole_alt z f a b : 0 <= f <= 1 -> 0 < a + z -> 0 < b + z ->
  walpole z f a b = f * a + (1 - f) * b - f * (1 - f) * (a - b)^2 / ((1 - f) * a + f * b + z).
Proof.
  intros Hf Ha Hb. assert (D := wal_den f a b z Hf Ha Hb). unfold walpole. field.
  repeat split; try lra.
Qed.
Lemma walpole_hs z f a b : a <> b -> 0 <= f <= 1 -> 0 < a + z -> 0 < b + z ->
  1 / (b - a) + f * (1 / (a + z)) <> 0 /\
  a + (1 - f) / (1 / (b - a) + f * (1 / (a + z))) = walpole z f a b.
Proof.
  intros N Hf Ha Hb. assert (D := wal_den f a b z Hf Ha Hb).
  assert (E : 1 / (b - a) + f * (1 / (a + z)) = ((1 - f) * a + f * b + z) / ((b - a) * (a + z))) by (field; lra).
  split.
  - rewrite E. apply Rmult_integral_contrapositive_currified; [lra|]. apply Rinv_neq_0_compat.
    apply Rmult_integral_contrapositive_currified; lra.
  - rewrite walpole_alt by assumption. field. repeat split; try lra.
Qed.
Lemma walpole_sym z f a b : walpole z f a b = walpole z (1 - f) b a.
Proof. unfold walpole. replace (1 - (1 - f)) with f by ring. rewrite Rplus_comm. reflexivity. Qed.
Lemma walpole_1 z a b : a + z <> 0 -> walpole z 1 a b = a.
Proof. intros H. unfold walpole. replace (1 - 1) with 0 by ring. unfold Rdiv at 2. rewrite Rmult_0_l, Rplus_0_r. field. auto. Qed.
Lemma walpole_0 z a b : b + z <> 0 -> walpole z 0 a b = b.
Proof. intros H. rewrite walpole_sym, Rminus_0_r. apply walpole_1, H. Qed.
Lemma walpole_le_voigt z f a b : 0 <= f <= 1 -> 0 < a + z -> 0 < b + z ->
  walpole z f a b <= f * a + (1 - f) * b.
Proof.
  intros Hf Ha Hb. rewrite walpole_alt by assumption. assert (D := wal_den f a b z Hf Ha Hb).
  assert (0 <= f * (1 - f) * (a - b)^2 / ((1 - f) * a + f * b + z)).
  { apply Rmult_le_pos; [|left; pos]. apply Rmult_le_pos; [apply Rmult_le_pos; lra|apply pow2_ge_0]. }
  lra.
Qed.
Lemma walpole_mono_z z z' f a b : 0 <= f <= 1 -> 0 < a + z -> 0 < b + z -> z <= z' ->
  walpole z f a b <= walpole z' f a b.
Proof.
  intros Hf Ha Hb Hz. rewrite !walpole_alt by lra. assert (D := wal_den f a b z Hf Ha Hb).
  assert (0 <= f * (1 - f) * (a - b)^2).
  { apply Rmult_le_pos; [apply Rmult_le_pos; lra|apply pow2_ge_0]. }
  assert (f * (1 - f) * (a - b)^2 / ((1 - f) * a + f * b + z') <= f * (1 - f) * (a - b)^2 / ((1 - f) * a + f * b + z)).
  { apply Rmult_le_compat_l; auto. apply Rinv_le_contravar; lra. }
  lra.
Qed.
Lemma walpole_mono z f a b a' b' : 0 <= f <= 1 -> 0 < a + z -> 0 < b + z -> a <= a' -> b <= b' ->
  walpole z f a b <= walpole z f a' b'.
Proof.
  intros Hf Ha Hb H1 H2. unfold walpole.
  assert (P : forall x y, 0 < x + z -> 0 < y + z -> 0 < f / (x + z) + (1 - f) / (y + z)).
  { intros x y Hx Hy. destruct (Req_EM_T f 0) as [->|N].
    - unfold Rdiv; rewrite Rmult_0_l, Rplus_0_l, Rminus_0_r, Rmult_1_l. pos.
    - assert (0 < f / (x + z)) by (apply Rdiv_lt_0_compat; lra).
      assert (0 <= (1 - f) / (y + z)) by (apply Rmult_le_pos; [lra|left; pos]). lra. }
  assert (f / (a' + z) <= f / (a + z)) by (apply Rmult_le_compat_l; [lra|]; apply Rinv_le_contravar; lra).
  assert ((1 - f) / (b' + z) <= (1 - f) / (b + z)) by (apply Rmult_le_compat_l; [lra|]; apply Rinv_le_contravar; lra).
  assert (/ (f / (a + z) + (1 - f) / (b + z)) <= / (f / (a' + z) + (1 - f) / (b' + z))).
  { apply Rinv_le_contravar; [apply P; lra|lra]. }
  lra.
Qed.
Lemma walpole_same z f a : a + z <> 0 -> walpole z f a a = a.
Proof.
  intros H. unfold walpole. replace (f / (a + z) + (1 - f) / (a + z)) with (1 / (a + z)) by (field; auto). field. auto.
Qed.
Lemma walpole_between z f a b : 0 <= f <= 1 -> 0 < a + z -> 0 < b + z -> b <= a ->
  b <= walpole z f a b <= a.
Proof.
  intros Hf Ha Hb H. split.
  - rewrite <- (walpole_same z f b) at 1 by lra. apply walpole_mono; lra.
  - rewrite <- (walpole_same z f a) at 2 by lra. apply walpole_mono; lra.
Qed.
Lemma walpole_mono_f z f g a b : 0 <= f -> f <= g -> g <= 1 -> 0 < a + z -> 0 < b + z -> b <= a ->
  walpole z f a b <= walpole z g a b.
Proof.
  intros Hf Hfg Hg Ha Hb H. unfold walpole.
  assert (P : 0 < g / (a + z) + (1 - g) / (b + z)).
  { destruct (Req_EM_T g 0) as [->|N].
    - unfold Rdiv; rewrite Rmult_0_l, Rplus_0_l, Rminus_0_r, Rmult_1_l. pos.
    - assert (0 < g / (a + z)) by (apply Rdiv_lt_0_compat; lra).
      assert (0 <= (1 - g) / (b + z)) by (apply Rmult_le_pos; [lra|left; pos]). lra. }
  assert (/ (a + z) <= / (b + z)) by (apply Rinv_le_contravar; lra).
  assert (g / (a + z) + (1 - g) / (b + z) <= f / (a + z) + (1 - f) / (b + z)).
  { unfold Rdiv. assert (0 <= (g - f) * (/ (b + z) - / (a + z))) by (apply Rmult_le_pos; lra). lra. }
  assert (/ (f / (a + z) + (1 - f) / (b + z)) <= / (g / (a + z) + (1 - g) / (b + z))).
  { apply Rinv_le_contravar; lra. }
  lra.
Qed.
(** z = 0 is the Reuss average. *)
Lemma walpole_z0 f a b : walpole 0 f a b = / (f / a + (1 - f) / b).
Proof. unfold walpole. rewrite !Rplus_0_r. ring. Qed.

Lemma zG_pos K G : 0 < K -> 0 < G -> 0 < zG K G.
Proof. intros. unfold zG. pos. Qed.
Lemma zK_pos G : 0 < G -> 0 < zK G.
Proof. intros. unfold zK. pos. Qed.
Lemma zG_temp K G : 0 < K -> 0 < G -> (K + 2 * G) / (5 * G * (K + 4 * G / 3)) = 1 / (2 * (G + zG K G)).
Proof. intros. unfold zG. field. repeat split; nra. Qed.
Lemma zG_mono K K' G G' : 0 < K -> 0 < G -> K <= K' -> G <= G' -> zG K G <= zG K' G'.
Proof.
  intros HK HG H1 H2. unfold zG.
  apply Rle_trans with (G / 6 * ((9 * K' + 8 * G) / (K' + 2 * G))).
  - apply Rmult_le_compat_l; [lra|]. apply div_le_div; nra.
  - replace (G / 6 * ((9 * K' + 8 * G) / (K' + 2 * G))) with ((G * (9 * K' + 8 * G)) / (6 * (K' + 2 * G))) by (field; lra).
    replace (G' / 6 * ((9 * K' + 8 * G') / (K' + 2 * G'))) with ((G' * (9 * K' + 8 * G')) / (6 * (K' + 2 * G'))) by (field; lra).
    apply div_le_div; try lra.
    assert (0 <= (G' - G) * (9 * K'^2 + 8 * K' * (G + G') - 0 + 16 * G * G')).
    { apply Rmult_le_pos; [lra|]. nra. }
    nra.
Qed.

(** ** Hashin-Shtrikman *)
Section HS.
Variables (m : mode) (f K1 K2 G1 G2 : R).
Hypotheses (HK1 : 0 < K1) (HK2 : 0 < K2) (HG1 : 0 < G1) (HG2 : 0 < G2) (Hf : 0 <= f <= 1).
Lemma HS_upper : K1 <> K2 -> G1 <> G2 ->
  EM_HS m (Fin f) (Fin K1) (Fin K2) (Fin G1) (Fin G2) "upper" =
  Ret (Fin (walpole (zK G1) f K1 K2), Fin (walpole (zG K1 G1) f G1 G2)).
Proof.
  intros NK NG. unfold EM_HS. cbn [String.eqb Ascii.eqb Bool.eqb].
  assert (Pz := zG_pos K1 G1 HK1 HG1).
  assert (Pk : 0 < zK G1) by (apply zK_pos; auto).
  destruct (walpole_hs (zK G1) f K1 K2 NK Hf ltac:(lra) ltac:(lra)) as [D1 E1].
  destruct (walpole_hs (zG K1 G1) f G1 G2 NG Hf ltac:(lra) ltac:(lra)) as [D2 E2].
  assert (T := zG_temp K1 G1 HK1 HG1).
  assert (Q : K1 + zK G1 = K1 + 4 * G1 / 3) by (unfold zK; field). rewrite Q in D1, E1.
  assert (Q2 : 2 * f * ((K1 + 2 * G1) / (5 * G1 * (K1 + 4 * G1 / 3))) = f * (1 / (G1 + zG K1 G1))).
  { rewrite T. field. lra. }
  rewrite <- Q2 in D2, E2.
  fls. rewrite E1, E2. reflexivity.
Qed.
Lemma HS_lower bound : bound <> "upper"%string -> K1 <> K2 -> G1 <> G2 ->
  EM_HS m (Fin f) (Fin K1) (Fin K2) (Fin G1) (Fin G2) bound =
  Ret (Fin (walpole (zK G2) f K1 K2), Fin (walpole (zG K2 G2) f G1 G2)).
Proof.
  intros HB NK NG. unfold EM_HS. destruct (String.eqb_spec bound "upper"); [contradiction|].
  assert (Pz := zG_pos K2 G2 HK2 HG2).
  assert (Pk : 0 < zK G2) by (apply zK_pos; auto).
  destruct (walpole_hs (zK G2) (1 - f) K2 K1 ltac:(congruence) ltac:(lra) ltac:(lra) ltac:(lra)) as [D1 E1].
  destruct (walpole_hs (zG K2 G2) (1 - f) G2 G1 ltac:(congruence) ltac:(lra) ltac:(lra) ltac:(lra)) as [D2 E2].
  rewrite <- walpole_sym in E1, E2. replace (1 - (1 - f)) with f in E1, E2 by ring.
  assert (T := zG_temp K2 G2 HK2 HG2).
  assert (Q : K2 + zK G2 = K2 + 4 * G2 / 3) by (unfold zK; field). rewrite Q in D1, E1.
  assert (Q2 : 2 * (1 - f) * ((K2 + 2 * G2) / (5 * G2 * (K2 + 4 * G2 / 3))) = (1 - f) * (1 / (G2 + zG K2 G2))).
  { rewrite T. field. lra. }
  rewrite <- Q2 in D2, E2.
  fls. rewrite E1, E2. reflexivity.
Qed.
End HS.

Lemma HS_walpole m f K1 K2 G1 G2 : 0 < K1 -> 0 < K2 -> 0 < G1 -> 0 < G2 -> 0 <= f <= 1 ->
  K1 <> K2 -> G1 <> G2 ->
  EM_HS m (Fin f) (Fin K1) (Fin K2) (Fin G1) (Fin G2) "upper" =
    Ret (Fin (walpole (zK G1) f K1 K2), Fin (walpole (zG K1 G1) f G1 G2)) /\
  forall bound, bound <> "upper"%string ->
  EM_HS m (Fin f) (Fin K1) (Fin K2) (Fin G1) (Fin G2) bound =
    Ret (Fin (walpole (zK G2) f K1 K2), Fin (walpole (zG K2 G2) f G1 G2)).
Proof. intros. split; [apply HS_upper | intros; apply HS_lower]; auto. Qed.

Lemma HS_order m f K1 K2 G1 G2 : 0 < K2 -> K2 < K1 -> 0 < G2 -> G2 < G1 -> 0 <= f <= 1 ->
  exists Ku Gu Kl Gl,
    EM_HS m (Fin f) (Fin K1) (Fin K2) (Fin G1) (Fin G2) "upper" = Ret (Fin Ku, Fin Gu) /\
    EM_HS m (Fin f) (Fin K1) (Fin K2) (Fin G1) (Fin G2) "lower" = Ret (Fin Kl, Fin Gl) /\
    / (f / K1 + (1 - f) / K2) <= Kl <= Ku /\ Ku <= f * K1 + (1 - f) * K2 /\
    / (f / G1 + (1 - f) / G2) <= Gl <= Gu /\ Gu <= f * G1 + (1 - f) * G2.
Proof.
  intros. destruct (HS_walpole m f K1 K2 G1 G2) as [U L]; try lra.
  specialize (L "lower"%string ltac:(discriminate)).
  do 4 eexists. split; [exact U|]. split; [exact L|].
  rewrite <- !walpole_z0.
  assert (0 < zK G2) by (apply zK_pos; lra). assert (0 < zG K2 G2) by (apply zG_pos; lra).
  assert (zK G2 <= zK G1) by (unfold zK; lra).
  assert (zG K2 G2 <= zG K1 G1) by (apply zG_mono; lra).
  split; [split; apply walpole_mono_z; lra|]. split; [apply walpole_le_voigt; lra|].
  split; [split; apply walpole_mono_z; lra|]. apply walpole_le_voigt; lra.
Qed.
Lemma HS_ends m K1 K2 G1 G2 bound : 0 < K1 -> 0 < K2 -> 0 < G1 -> 0 < G2 -> K1 <> K2 -> G1 <> G2 ->
  EM_HS m (Fin 1) (Fin K1) (Fin K2) (Fin G1) (Fin G2) bound = Ret (Fin K1, Fin G1) /\
  EM_HS m (Fin 0) (Fin K1) (Fin K2) (Fin G1) (Fin G2) bound = Ret (Fin K2, Fin G2).
Proof.
  intros.
  assert (P1 := zG_pos K1 G1 ltac:(auto) ltac:(auto)). assert (P2 := zG_pos K2 G2 ltac:(auto) ltac:(auto)).
  assert (P3 := zK_pos G1 ltac:(auto)). assert (P4 := zK_pos G2 ltac:(auto)).
  destruct (string_dec bound "upper") as [->|N].
  - rewrite !HS_upper by lra. rewrite !walpole_1, !walpole_0 by lra. auto.
  - rewrite !HS_lower by (assumption || lra). rewrite !walpole_1, !walpole_0 by lra. auto.
Qed.
(** Exchanging the phases exchanges the two bounds. *)
Lemma HS_swap m f K1 K2 G1 G2 : 0 < K1 -> 0 < K2 -> 0 < G1 -> 0 < G2 -> 0 <= f <= 1 ->
  K1 <> K2 -> G1 <> G2 ->
  EM_HS m (Fin f) (Fin K1) (Fin K2) (Fin G1) (Fin G2) "upper" =
  EM_HS m (Fin (1 - f)) (Fin K2) (Fin K1) (Fin G2) (Fin G1) "lower".
Proof.
  intros. rewrite HS_upper, HS_lower by (lra || congruence || discriminate).
  rewrite (walpole_sym (zK G1)), (walpole_sym (zG K1 G1)). reflexivity.
Qed.
Lemma HS_mono_f m f g K1 K2 G1 G2 bound : 0 < K2 -> K2 < K1 -> 0 < G2 -> G2 < G1 -> 0 <= f -> f <= g -> g <= 1 ->
  exists Kf Gf Kg Gg,
    EM_HS m (Fin f) (Fin K1) (Fin K2) (Fin G1) (Fin G2) bound = Ret (Fin Kf, Fin Gf) /\
    EM_HS m (Fin g) (Fin K1) (Fin K2) (Fin G1) (Fin G2) bound = Ret (Fin Kg, Fin Gg) /\
    Kf <= Kg /\ Gf <= Gg.
Proof.
  intros.
  assert (P1 := zG_pos K1 G1 ltac:(lra) ltac:(lra)). assert (P2 := zG_pos K2 G2 ltac:(lra) ltac:(lra)).
  assert (P3 := zK_pos G1 ltac:(lra)). assert (P4 := zK_pos G2 ltac:(lra)).
  destruct (string_dec bound "upper") as [->|N].
  - rewrite !HS_upper by lra. do 4 eexists. do 2 (split; [reflexivity|]). split; apply walpole_mono_f; lra.
  - rewrite !HS_lower by (assumption || lra). do 4 eexists. do 2 (split; [reflexivity|]).
    split; apply walpole_mono_f; lra.
Qed.

(** Equal phases. *)
Lemma HS_equal_py f K G G2 bound :
  EM_HS PyFloat (Fin f) (Fin K) (Fin K) (Fin G) (Fin G2) bound = Raise ZeroDivisionError.
Proof.
  unfold EM_HS. destruct (String.eqb bound "upper"); fls; replace (K - K) with 0 by ring;
  rewrite fdiv_zero_py_fin; cbn [fadd fdiv]; fls;
  repeat (destruct (Req_EM_T _ _)); reflexivity.
Qed.
Lemma fadd_inf_l a : fadd Inf (Fin a) = Inf. Proof. reflexivity. Qed.
Lemma HS_equal_np f K G bound : 0 < K -> 0 < G ->
  EM_HS NumPy (Fin f) (Fin K) (Fin K) (Fin G) (Fin G) bound = Ret (Fin K, Fin G).
Proof.
  intros. unfold EM_HS. destruct (String.eqb bound "upper"); fls;
  replace (K - K) with 0 by ring; replace (G - G) with 0 by ring;
  repeat (first [fl1 | flc | rewrite fdiv_zero_np by lra | rewrite fadd_inf_l | rewrite fdiv_inf]; cbv beta); reteq; ring.
Qed.
(** A fluid (G2 = 0) as the soft phase, lower bound: Reuss bulk modulus, zero shear. *)
Lemma HS_fluid_lower f K1 K2 G1 : 0 < K1 -> 0 < K2 -> 0 < G1 -> K1 <> K2 -> 0 <= f < 1 ->
  EM_HS NumPy (Fin f) (Fin K1) (Fin K2) (Fin G1) (Fin 0) "lower" =
  Ret (Fin (/ (f / K1 + (1 - f) / K2)), Fin 0) /\
  EM_HS PyFloat (Fin f) (Fin K1) (Fin K2) (Fin G1) (Fin 0) "lower" = Raise ZeroDivisionError.
Proof.
  intros H1 H2 H3 NK Hf.
  destruct (walpole_hs 0 (1 - f) K2 K1 ltac:(congruence) ltac:(lra) ltac:(lra) ltac:(lra)) as [D1 E1].
  rewrite <- walpole_sym in E1. replace (1 - (1 - f)) with f in E1 by ring. rewrite walpole_z0 in E1.
  replace (K2 + 0) with (K2 + 4 * 0 / 3) in D1, E1 by field.
  split; unfold EM_HS; cbn [String.eqb Ascii.eqb Bool.eqb]; fls; rewrite E1;
  replace (5 * 0 * (K2 + 4 * 0 / 3)) with 0 by ring.
  - rewrite fdiv_zero_np by lra. rewrite bind_inf.
    rewrite fmul_inf_r by lra. rewrite (fdiv_fin NumPy 1 (G1 - 0)) by lra.
    change (fadd (Fin (1 / (G1 - 0))) Inf) with Inf. rewrite fdiv_inf. fls. reteq. ring.
  - rewrite fdiv_zero_py_fin. reflexivity.
Qed.

(** ** Mori-Tanaka *)
Lemma MT_walpole m f Km Gm K1 G1 K2 G2 : 0 < Km -> 0 < Gm -> 0 <= K1 -> 0 <= K2 -> 0 <= G1 -> 0 <= G2 -> 0 <= f <= 1 ->
  EM_MT_average m (Fin f) (Fin Km) (Fin Gm) (Fin K1) (Fin G1) (Fin K2) (Fin G2) =
  Ret (Fin (walpole (zK Gm) f K1 K2), Fin (walpole (zG Km Gm) f G1 G2)).
Proof.
  intros HKm HGm H1 H2 H3 H4 Hf.
  set (nu := (3 * Km - 2 * Gm) / (2 * (3 * Km + Gm))).
  set (al := (1 + nu) / (3 * (1 - nu))). set (be := 2 * (4 - 5 * nu) / (15 * (1 - nu))).
  assert (Pz := zG_pos Km Gm HKm HGm). assert (Pk := zK_pos Gm HGm).
  assert (N1 : 1 - nu = (3 * Km + 4 * Gm) / (2 * (3 * Km + Gm))) by (unfold nu; field; lra).
  assert (P1 : 0 < 1 - nu) by (rewrite N1; pos).
  assert (A : al = Km / (Km + zK Gm)) by (unfold al, nu, zK; field; repeat split; lra).
  assert (B : be = Gm / (Gm + zG Km Gm)).
  { unfold be, nu, zG. field. repeat split; nra. }
  assert (Pa : 0 < al) by (rewrite A; pos). assert (Pb : 0 < be) by (rewrite B; pos).
  assert (DK : forall k, Km - (Km - k) * al = al * (k + zK Gm)) by (intros; rewrite A; field; lra).
  assert (DG : forall k, Gm - (Gm - k) * be = be * (k + zG Km Gm)) by (intros; rewrite B; field; lra).
  assert (PK : forall k, 0 <= k -> 0 < Km - (Km - k) * al) by (intros; rewrite DK; apply Rmult_lt_0_compat; lra).
  assert (PG : forall k, 0 <= k -> 0 < Gm - (Gm - k) * be) by (intros; rewrite DG; apply Rmult_lt_0_compat; lra).
  assert (SP : forall g x y, 0 < g -> 0 < x -> 0 < y -> 0 < f * g / x + (1 - f) * g / y).
  { intros g x y Hg Hx Hy. destruct (Req_EM_T f 0) as [->|N].
    - replace (0 * g / x + (1 - 0) * g / y) with (g / y) by (field; lra). pos.
    - assert (0 < f * g / x) by (apply Rdiv_lt_0_compat; [apply Rmult_lt_0_compat|]; lra).
      assert (0 <= (1 - f) * g / y) by (apply Rmult_le_pos; [apply Rmult_le_pos; lra | left; pos]). lra. }
  unfold EM_MT_average. repeat (first [fl1 | rewrite fdiv_fin by lra]; cbv beta). fold nu.
  repeat (first [fl1 | rewrite fdiv_fin by lra]; cbv beta). fold al.
  repeat (first [fl1 | rewrite fdiv_fin by lra]; cbv beta). fold be.
  assert (X1 := PK K1 H1). assert (X2 := PK K2 H2). assert (X3 := PG G1 H3). assert (X4 := PG G2 H4).
  assert (Y1 := SP Km _ _ HKm X1 X2). assert (Y2 := SP Gm _ _ HGm X3 X4).
  repeat (first [fl1 | rewrite fdiv_fin by lra]; cbv beta).
  rewrite !DK, !DG in *.
  rewrite !walpole_alt by lra. 
  assert (W1 := wal_den f K1 K2 (zK Gm) Hf ltac:(lra) ltac:(lra)).
  assert (W2 := wal_den f G1 G2 (zG Km Gm) Hf ltac:(lra) ltac:(lra)).
  clearbody al be. clear A B DK DG PK PG SP.
  revert Pz Pk W1 W2 X1 X2 X3 X4 Y1 Y2. generalize (zK Gm) as z. generalize (zG Km Gm) as y. intros.
  reteq; field; repeat split; try lra; try nra.
Qed.
Lemma MT_is_HS m f K1 K2 G1 G2 : 0 < K1 -> 0 < K2 -> 0 < G1 -> 0 < G2 -> 0 <= f <= 1 ->
  K1 <> K2 -> G1 <> G2 ->
  EM_MT_average m (Fin f) (Fin K1) (Fin G1) (Fin K1) (Fin G1) (Fin K2) (Fin G2) =
  EM_HS m (Fin f) (Fin K1) (Fin K2) (Fin G1) (Fin G2) "upper" /\
  EM_MT_average m (Fin f) (Fin K2) (Fin G2) (Fin K1) (Fin G1) (Fin K2) (Fin G2) =
  EM_HS m (Fin f) (Fin K1) (Fin K2) (Fin G1) (Fin G2) "lower".
Proof.
  intros. rewrite !MT_walpole by lra. rewrite HS_upper, HS_lower by (lra || discriminate). auto.
Qed.
Lemma MT_facts m f Km Gm K1 G1 K2 G2 : 0 < Km -> 0 < Gm -> 0 <= K2 -> K2 <= K1 -> 0 <= G2 -> G2 <= G1 -> 0 <= f <= 1 ->
  exists K G, EM_MT_average m (Fin f) (Fin Km) (Fin Gm) (Fin K1) (Fin G1) (Fin K2) (Fin G2) = Ret (Fin K, Fin G) /\
    K2 <= K <= K1 /\ G2 <= G <= G1 /\ K <= f * K1 + (1 - f) * K2 /\ G <= f * G1 + (1 - f) * G2.
Proof.
  intros. rewrite MT_walpole by lra.
  assert (Pz := zG_pos Km Gm ltac:(auto) ltac:(auto)). assert (Pk := zK_pos Gm ltac:(auto)).
  do 2 eexists. split; [reflexivity|]. split; [apply walpole_between; lra|]. split; [apply walpole_between; lra|].
  split; apply walpole_le_voigt; lra.
Qed.
