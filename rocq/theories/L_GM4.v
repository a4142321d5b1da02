(** * GM.py: patchy cement, varying patchiness, diluting. *)
From Verif Require Import Fl Cx M_Utils M_EM M_GM Spec Spec3 RealLemmas L_EM1 L_GM1 L_GM2.
Open Scope R_scope.

Definition lastK t Kp Gp K0 : R := walpole (zK Gp) t Kp K0.
Definition lastG t Kp Gp G0 : R := walpole (zG Kp Gp) t Gp G0.
Lemma last_mono t Kp Gp Kp' Gp' K0 G0 : 0 <= t <= 1 -> 0 < Kp <= Kp' -> 0 < Gp <= Gp' -> 0 < K0 -> 0 < G0 ->
  lastK t Kp Gp K0 <= lastK t Kp' Gp' K0 /\ lastG t Kp Gp G0 <= lastG t Kp' Gp' G0.
Proof.
  intros Ht HK HG H1 H2. unfold lastK, lastG.
  assert (A := zK_pos Gp ltac:(lra)). assert (B := zG_pos Kp Gp ltac:(lra) ltac:(lra)).
  assert (C := zG_mono Kp Kp' Gp Gp' ltac:(lra) ltac:(lra) ltac:(lra) ltac:(lra)).
  assert (zK Gp <= zK Gp') by (unfold zK; lra).
  split.
  - apply Rle_trans with (walpole (zK Gp') t Kp K0); [apply walpole_mono_z; lra|apply walpole_mono; lra].
  - apply Rle_trans with (walpole (zG Kp' Gp') t Gp G0); [apply walpole_mono_z; lra|apply walpole_mono; lra].
Qed.

Lemma stiff_fin m f Ku Gu Kc Gc : 0 <= f <= 1 -> 0 < Ku -> 0 < Gu -> 0 < Kc -> 0 < Gc -> Ku <> Kc -> Gu <> Gc ->
  GM_pcm_stiff m (Fin f) (Fin Ku) (Fin Gu) (Fin Kc) (Fin Gc) =
  Ret (Fin (walpole (zK Gc) f Kc Ku), Fin (walpole (zG Kc Gc) f Gc Gu)).
Proof.
  intros. destruct (HS_walpole m f Kc Ku Gc Gu) as [E _]; auto.
Qed.
Lemma soft_fin m f Ku Gu Kc Gc : 0 <= f <= 1 -> 0 < Ku -> 0 < Gu -> 0 < Kc -> 0 < Gc -> Ku <> Kc -> Gu <> Gc ->
  GM_pcm_soft m (Fin f) (Fin Ku) (Fin Gu) (Fin Kc) (Fin Gc) =
  Ret (Fin (walpole (zK Gu) f Kc Ku), Fin (walpole (zG Ku Gu) f Gc Gu)).
Proof.
  intros. destruct (HS_walpole m f Kc Ku Gc Gu) as [_ E]; auto. exact (E "lower"%string ltac:(discriminate)).
Qed.

(** The end members, as the API computes them. *)
Definition cem_end m K0 G0 Kc Gc phic v_cem v_ci Cn scheme (Kb Gb : R) : Prop :=
  (v_cem <= v_ci ->
   GM_contactcement m (Fin K0) (Fin G0) (Fin Kc) (Fin Gc) (Fin (phic - v_cem)) (Fin phic) (Fin Cn) scheme = Ret (Fin Kb, Fin Gb)) /\
  (v_ci < v_cem ->
   GM_MUHS m (Fin K0) (Fin G0) (Fin Kc) (Fin Gc) (Fin (phic - v_cem)) (Fin (phic - v_ci)) (Fin phic) (Fin Cn) scheme = Ret (Fin Kb, Fin Gb)).

Section PCM.
Variables (m : mode) (sg K0 G0 phi phic v_cem v_ci Kc Gc Cn : R) (scheme : Z) (f_ : R) (Ku Gu Kb Gb : R).
Hypotheses (HU : GM_hertzmindlin m (Fin K0) (Fin G0) (Fin phic) (Fin Cn) (Fin sg) (Fin f_) = Ret (Fin Ku, Fin Gu))
  (HB : cem_end m K0 G0 Kc Gc phic v_cem v_ci Cn scheme Kb Gb)
  (HKu : 0 < Ku) (HGu : 0 < Gu) (HKb : Ku < Kb) (HGb : Gu < Gb) (HK : 0 < K0) (HG : 0 < G0)
  (Hphi : 0 <= phi <= phic) (Hc : 0 < phic).
Lemma ends_fin :
  GM_pcm_ends m (Fin sg) (Fin K0) (Fin G0) (Fin phic) (Fin v_cem) (Fin v_ci) (Fin Kc) (Fin Gc) (Fin Cn) scheme (Fin f_)
  = Ret ((Fin Ku, Fin Gu), (Fin Kb, Fin Gb)).
Proof.
  unfold GM_pcm_ends. rewrite HU, call_ret. destruct HB as [B1 B2].
  unfold fleb, fcmp, Rleb. destruct (Rle_dec v_cem v_ci) as [L|L].
  - rewrite fsub_fin. rewrite B1 by assumption. rewrite call_ret. reflexivity.
  - rewrite !fsub_fin. rewrite B2 by lra. rewrite call_ret. reflexivity.
Qed.
Let t := phi / phic.
Lemma t_range : 0 <= t <= 1.
Proof. unfold t. split; [apply le_div_iff|apply div_le_iff]; lra. Qed.
Lemma p_range z f (a b : R) : 0 < b < a -> 0 < z -> 0 <= f <= 1 -> b <= walpole z f a b <= a.
Proof. intros. apply walpole_between; lra. Qed.
Lemma pcm_stiff_fin f : 0 <= f <= 1 ->
  GM_pcm m (Fin f) (Fin sg) (Fin K0) (Fin G0) (Fin phi) (Fin phic) (Fin v_cem) (Fin v_ci) (Fin Kc) (Fin Gc) (Fin Cn) "stiff" scheme (Fin f_) =
  let Kp := walpole (zK Gb) f Kb Ku in let Gp := walpole (zG Kb Gb) f Gb Gu in
  Ret (Fin (lastK t Kp Gp K0), Fin (lastG t Kp Gp G0)).
Proof.
  intros Hf. unfold GM_pcm. rewrite ends_fin, call_ret. cbn [String.eqb Ascii.eqb Bool.eqb].
  rewrite stiff_fin by lra. rewrite call_ret. cbv zeta.
  assert (A := p_range (zK Gb) f Kb Ku ltac:(lra) ltac:(apply zK_pos; lra) Hf).
  assert (B := p_range (zG Kb Gb) f Gb Gu ltac:(lra) ltac:(apply zG_pos; lra) Hf).
  rewrite final_fin by lra. reflexivity.
Qed.
Lemma pcm_soft_fin md f : md <> "stiff"%string -> 0 <= f <= 1 ->
  GM_pcm m (Fin f) (Fin sg) (Fin K0) (Fin G0) (Fin phi) (Fin phic) (Fin v_cem) (Fin v_ci) (Fin Kc) (Fin Gc) (Fin Cn) md scheme (Fin f_) =
  let Kp := walpole (zK Gu) f Kb Ku in let Gp := walpole (zG Ku Gu) f Gb Gu in
  Ret (Fin (lastK t Kp Gp K0), Fin (lastG t Kp Gp G0)).
Proof.
  intros Hm Hf. unfold GM_pcm. rewrite ends_fin, call_ret. apply String.eqb_neq in Hm. rewrite Hm.
  rewrite soft_fin by lra. rewrite call_ret. cbv zeta.
  assert (A := p_range (zK Gu) f Kb Ku ltac:(lra) ltac:(apply zK_pos; lra) Hf).
  assert (B := p_range (zG Ku Gu) f Gb Gu ltac:(lra) ltac:(apply zG_pos; lra) Hf).
  rewrite final_fin by lra. reflexivity.
Qed.
Lemma soft_le_stiff f : 0 <= f <= 1 ->
  walpole (zK Gu) f Kb Ku <= walpole (zK Gb) f Kb Ku /\ walpole (zG Ku Gu) f Gb Gu <= walpole (zG Kb Gb) f Gb Gu.
Proof.
  intros Hf. assert (A := zK_pos Gu HGu). assert (B := zG_pos Ku Gu HKu HGu).
  assert (C := zG_mono Ku Kb Gu Gb ltac:(lra) ltac:(lra) ltac:(lra) ltac:(lra)).
  split; apply walpole_mono_z; try lra. unfold zK; lra.
Qed.
Definition vK f al := walpole (zK Gb) f Kb Ku * (1 - al) + walpole (zK Gu) f Kb Ku * al.
Definition vG f al := walpole (zG Kb Gb) f Gb Gu * (1 - al) + walpole (zG Ku Gu) f Gb Gu * al.
Lemma v_range f al : 0 <= f <= 1 -> 0 <= al <= 1 -> Ku <= vK f al <= Kb /\ Gu <= vG f al <= Gb.
Proof.
  intros Hf Ha. unfold vK, vG.
  assert (A := p_range (zK Gb) f Kb Ku ltac:(lra) ltac:(apply zK_pos; lra) Hf).
  assert (B := p_range (zG Kb Gb) f Gb Gu ltac:(lra) ltac:(apply zG_pos; lra) Hf).
  assert (C := p_range (zK Gu) f Kb Ku ltac:(lra) ltac:(apply zK_pos; lra) Hf).
  assert (D := p_range (zG Ku Gu) f Gb Gu ltac:(lra) ltac:(apply zG_pos; lra) Hf).
  set (a := walpole (zK Gb) _ _ _) in *. set (b := walpole (zG Kb Gb) _ _ _) in *.
  set (c := walpole (zK Gu) _ _ _) in *. set (d := walpole (zG Ku Gu) _ _ _) in *. split; split; nra.
Qed.
Lemma v_anti f al al' : 0 <= f <= 1 -> al <= al' -> vK f al' <= vK f al /\ vG f al' <= vG f al.
Proof.
  intros Hf H. unfold vK, vG. destruct (soft_le_stiff f Hf) as [A B].
  set (a := walpole (zK Gb) _ _ _) in *. set (b := walpole (zG Kb Gb) _ _ _) in *.
  set (c := walpole (zK Gu) _ _ _) in *. set (d := walpole (zG Ku Gu) _ _ _) in *. split; nra.
Qed.
Lemma vpcm_fin al f : 0 <= f <= 1 -> 0 <= al <= 1 ->
  GM_vpcm m (Fin al) (Fin f) (Fin sg) (Fin K0) (Fin G0) (Fin phi) (Fin phic) (Fin v_cem) (Fin v_ci) (Fin Kc) (Fin Gc) (Fin Cn) scheme (Fin f_) =
  Ret (Fin (lastK t (vK f al) (vG f al) K0), Fin (lastG t (vK f al) (vG f al) G0)).
Proof.
  intros Hf Ha. unfold GM_vpcm. rewrite ends_fin, call_ret. rewrite stiff_fin by lra. rewrite call_ret.
  rewrite soft_fin by lra. rewrite call_ret. destruct (v_range f al Hf Ha) as [A B]. unfold vK, vG in *.
  repeat (first [fl1]; cbv beta). rewrite final_fin by lra. reflexivity.
Qed.

Notation pcm f md := (GM_pcm m (Fin f) (Fin sg) (Fin K0) (Fin G0) (Fin phi) (Fin phic) (Fin v_cem) (Fin v_ci) (Fin Kc) (Fin Gc) (Fin Cn) md scheme (Fin f_)).
Notation vpcm al f := (GM_vpcm m (Fin al) (Fin f) (Fin sg) (Fin K0) (Fin G0) (Fin phi) (Fin phic) (Fin v_cem) (Fin v_ci) (Fin Kc) (Fin Gc) (Fin Cn) scheme (Fin f_)).
Lemma pcm_f0 md : pcm 0 md = GM_softsand m (Fin K0) (Fin G0) (Fin phi) (Fin phic) (Fin Cn) (Fin sg) (Fin f_).
Proof.
  assert (E : GM_softsand m (Fin K0) (Fin G0) (Fin phi) (Fin phic) (Fin Cn) (Fin sg) (Fin f_)
    = Ret (Fin (lastK t Ku Gu K0), Fin (lastG t Ku Gu G0))).
  { unfold GM_softsand. rewrite HU, call_ret. exact (final_fin m Ku Gu K0 G0 phi phic HKu HGu HK HG Hphi Hc). }
  rewrite E.
  assert (P1 := zK_pos Gu HGu). assert (P2 := zG_pos Ku Gu HKu HGu).
  assert (P3 := zK_pos Gb ltac:(lra)). assert (P4 := zG_pos Kb Gb ltac:(lra) ltac:(lra)).
  destruct (string_dec md "stiff") as [->|N].
  - rewrite pcm_stiff_fin by lra. cbv zeta. rewrite !walpole_0 by lra. reflexivity.
  - rewrite pcm_soft_fin by (auto; lra). cbv zeta. rewrite !walpole_0 by lra. reflexivity.
Qed.
Lemma pcm_f1 md : pcm 1 md = Ret (Fin (lastK t Kb Gb K0), Fin (lastG t Kb Gb G0)).
Proof.
  assert (P1 := zK_pos Gu HGu). assert (P2 := zG_pos Ku Gu HKu HGu).
  assert (P3 := zK_pos Gb ltac:(lra)). assert (P4 := zG_pos Kb Gb ltac:(lra) ltac:(lra)).
  destruct (string_dec md "stiff") as [->|N].
  - rewrite pcm_stiff_fin by lra. cbv zeta. rewrite !walpole_1 by lra. reflexivity.
  - rewrite pcm_soft_fin by (auto; lra). cbv zeta. rewrite !walpole_1 by lra. reflexivity.
Qed.
Lemma vpcm_0 f : 0 <= f <= 1 -> vpcm 0 f = pcm f "stiff".
Proof.
  intros. rewrite vpcm_fin by lra. rewrite pcm_stiff_fin by lra. cbv zeta. unfold vK, vG.
  rewrite !Rmult_0_r, !Rplus_0_r, !Rminus_0_r, !Rmult_1_r. reflexivity.
Qed.
Lemma vpcm_1 f md : 0 <= f <= 1 -> md <> "stiff"%string -> vpcm 1 f = pcm f md.
Proof.
  intros. rewrite vpcm_fin by lra. rewrite pcm_soft_fin by (auto; lra). cbv zeta. unfold vK, vG.
  replace (1 - 1) with 0 by ring. rewrite !Rmult_0_r, !Rplus_0_l, !Rmult_1_r. reflexivity.
Qed.
(** Less dilution or more cemented rock is stiffer; everything lies between soft sand and the
    fully cemented frame. *)
Lemma vpcm_mono f f' al al' : 0 <= f -> f <= f' -> f' <= 1 -> 0 <= al' -> al' <= al -> al <= 1 ->
  exists K G K' G', vpcm al f = Ret (Fin K, Fin G) /\ vpcm al' f' = Ret (Fin K', Fin G') /\ K <= K' /\ G <= G'.
Proof.
  intros Hf Hff Hf' Ha Haa Ha'. rewrite !vpcm_fin by lra. do 4 eexists. split; [reflexivity|]. split; [reflexivity|].
  assert (P1 := zK_pos Gu HGu). assert (P2 := zG_pos Ku Gu HKu HGu).
  assert (P3 := zK_pos Gb ltac:(lra)). assert (P4 := zG_pos Kb Gb ltac:(lra) ltac:(lra)).
  destruct (v_range f al ltac:(lra) ltac:(lra)) as [A B].
  destruct (v_range f' al' ltac:(lra) ltac:(lra)) as [A' B'].
  destruct (v_anti f al' al ltac:(lra) Haa) as [X Y].
  assert (X' : vK f al' <= vK f' al').
  { unfold vK. apply Rplus_le_compat; apply Rmult_le_compat_r; try lra; apply walpole_mono_f; lra. }
  assert (Y' : vG f al' <= vG f' al').
  { unfold vG. apply Rplus_le_compat; apply Rmult_le_compat_r; try lra; apply walpole_mono_f; lra. }
  apply last_mono; try lra. exact t_range.
Qed.
End PCM.

(** ** Diluting *)
Lemma dil_elem k s0 s e : 0 < s0 -> 0 <= s < s0 ->
  fnan0 (Fin k * fpow NumPy (#1 - Fin s /n Fin s0) (Fin e))%fl = Fin (k * Rpower (1 - s / s0) e).
Proof.
  intros H0 Hs. rewrite fdiv_fin by lra. rewrite fsub_fin, fpow_fin, fmul_fin; [reflexivity|].
  assert (s / s0 < 1) by (apply div_lt_iff; lra). lra.
Qed.
Lemma dil_ref k s0 e : 0 < s0 -> 0 < e ->
  fnan0 (Fin k * fpow NumPy (#1 - Fin s0 /n Fin s0) (Fin e))%fl = Fin 0.
Proof.
  intros H0 He. rewrite fdiv_fin by lra. rewrite fsub_fin. replace (1 - s0 / s0) with 0 by (field; lra).
  rewrite fpow_zero, fmul_fin by lra. rewrite Rmult_0_r. reflexivity.
Qed.
Lemma dil_beyond k s0 s e : 0 < s0 -> s0 < s -> (forall z, e <> IZR z) ->
  fnan0 (Fin k * fpow NumPy (#1 - Fin s /n Fin s0) (Fin e))%fl = Fin 0.
Proof.
  intros H0 Hs He. rewrite fdiv_fin by lra. rewrite fsub_fin, fpow_neg_np; [reflexivity| |exact He].
  assert (1 < s / s0) by (apply lt_div_iff; lra). lra.
Qed.
Lemma dil_beyond_sq k s0 s : 0 < s0 -> s0 < s ->
  fnan0 (Fin k * fpow NumPy (#1 - Fin s /n Fin s0) #2)%fl = Fin (k * (s / s0 - 1)^2).
Proof.
  intros H0 Hs. rewrite fdiv_fin by lra. rewrite fsub_fin. change (Fin 2) with (Fin (IZR 2)).
  rewrite fpow_neg_int; [|assert (1 < s / s0) by (apply lt_div_iff; lra); lra].
  rewrite fmul_fin. cbn [fnan0]. apply f_equal. simpl. ring.
Qed.
Lemma dil_scalar m k s0 s e : s0 <> 0 -> exists x, GM_diluting m (Fin k) (Fin s0) (SScalar (Fin s)) (Fin e) = Raise x.
Proof. intros. unfold GM_diluting. destruct (_ * _)%fl; eexists; reflexivity. Qed.
Lemma dil_scalar_type m k s0 s e : s0 <> 0 -> 0 < e ->
  GM_diluting m (Fin k) (Fin s0) (SScalar (Fin s)) (Fin e) = Raise TypeError.
Proof.
  intros H He. unfold GM_diluting. rewrite fdiv_fin by assumption. rewrite fsub_fin.
  set (x := 1 - s / s0).
  destruct (Rtotal_order x 0) as [L|[->|L]].
  - unfold fpow. destruct (Rlt_dec 0 x); [lra|]. destruct (Req_EM_T x 0); [lra|].
    destruct (Req_EM_T e _); [reflexivity|]. destruct m; reflexivity.
  - rewrite fpow_zero by assumption. reflexivity.
  - rewrite fpow_fin by assumption. reflexivity.
Qed.
(** End members of equal stiffness: Python floats raise. *)
Lemma pcm_equal_raises f Ku Gu Gc : GM_pcm_stiff PyFloat (Fin f) (Fin Ku) (Fin Gu) (Fin Ku) (Fin Gc) = Raise ZeroDivisionError.
Proof.
  unfold GM_pcm_stiff. rewrite !fsub_fin. replace (Ku - Ku) with 0 by ring.
  rewrite fdiv_zero_py_fin. reflexivity.
Qed.
(** The uncemented pack can be made as soft as desired. *)
Lemma hm_small m K0 G0 phic Cn f K G : 0 < K0 -> 0 < G0 -> 0 <= phic < 1 -> 0 < Cn -> 0 <= f <= 1 -> 0 < K -> 0 < G ->
  exists sg Ku Gu, 0 < sg /\ GM_hertzmindlin m (Fin K0) (Fin G0) (Fin phic) (Fin Cn) (Fin sg) (Fin f) = Ret (Fin Ku, Fin Gu) /\
    0 < Ku < K /\ 0 < Gu < G.
Proof.
  intros HK HG Hp HC Hf PK PG.
  set (c := hertz_K3 K0 G0 phic Cn 1). assert (Pc : 0 < c) by (apply K3_pos; auto; lra).
  set (q := hertz_GK K0 G0 f). assert (Pq : 0 < q) by (apply GK_pos; auto).
  set (k := Rmin (K / 2) (G / (2 * q))).
  assert (Pk : 0 < k) by (apply Rmin_pos; [lra|apply Rdiv_lt_0_compat; lra]).
  assert (k3 : 0 < k^3) by (apply pow_lt, Pk).
  exists (1000 * (k^3 / c)). rewrite hertzmindlin_fin; auto.
  2: { left. apply Rmult_lt_0_compat; [lra|]. apply Rdiv_lt_0_compat; lra. }
  cbv zeta. replace (1000 * (k^3 / c) / 1000) with ((k^3 / c) * 1) by (field; lra).
  rewrite K3_scale. fold c. replace (k^3 / c * c) with (k^3) by (field; lra).
  rewrite (cbrt_eq (k^3) k) by (auto; lra). fold q.
  do 2 eexists. split; [apply Rmult_lt_0_compat; [lra|apply Rdiv_lt_0_compat; lra]|]. split; [reflexivity|].
  assert (k <= K / 2) by apply Rmin_l. assert (Y : k <= G / (2 * q)) by apply Rmin_r.
  split; [lra|]. split; [apply Rmult_lt_0_compat; lra|].
  apply (Rmult_le_compat_l q) in Y; [|lra]. replace (q * (G / (2 * q))) with (G / 2) in Y by (field; lra). lra.
Qed.
