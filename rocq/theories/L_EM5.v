(** * Inclusion models: P and Q factors, self-consistent schemes, cracks. *)
From Verif Require Import Fl M_Utils M_EM Spec RealLemmas L_Lists.
Open Scope R_scope.

(** ** P and Q *)
Section F.
Variables (A B r f th : R).
Definition pF1 := 1 + A * (3/2 * (f + th) - r * (3/2 * f + 5/2 * th - 4/3)).
Definition pF2 := 1 + A * (1 + 3/2 * (f + th) - r * (3/2 * f + 5/2 * th)) + B * (3 - 4 * r)
  + A * (A + 3 * B) * (3/2 - 2 * r) * (f + th - r * (f - th + 2 * th ^ 2)).
Definition pF3 := 1 + A * (1 - f - 3/2 * th + r * (f + th)).
Definition pF4 := 1 + A / 4 * (f + 3 * th - r * (f - th)).
Definition pF5 := A * (- f + r * (f + th - 4/3)) + B * th * (3 - 4 * r).
Definition pF6 := 1 + A * (1 + f - r * (f + th)) + B * (1 - th) * (3 - 4 * r).
Definition pF7 := 2 + A / 4 * (3 * f + 9 * th - r * (3 * f + 5 * th)) + B * th * (3 - 4 * r).
Definition pF8 := A * (1 - 2 * r + f / 2 * (r - 1) + th / 2 * (5 * r - 3)) + B * (1 - th) * (3 - 4 * r).
Definition pF9 := A * ((r - 1) * f - r * th) + B * th * (3 - 4 * r).
Definition pqP := pF1 / pF2.
Definition pqQ := (2 / pF3 + 1 / pF4 + (pF4 * pF5 + pF6 * pF7 - pF8 * pF9) / (pF2 * pF4)) / 5.
End F.

Lemma PQ_spheroid_eval m Km Gm Ki Gi al th : Km <> 0 -> Gm <> 0 -> Km + 4/3*Gm <> 0 -> 1 - al^2 <> 0 ->
  let f := al^2 * (3 * th - 2) / (1 - al^2) in
  let A := Gi / Gm - 1 in let B := (Ki / Km - Gi / Gm) / 3 in let r := Gm / (Km + 4/3*Gm) in
  pF2 A B r f th <> 0 -> pF3 A r f th <> 0 -> pF4 A r f th <> 0 ->
  EM_PQ_spheroid (fdiv m) (Fin Km) (Fin Gm) (Fin Ki) (Fin Gi) (Fin al) (Fin th)
  = Ret (Fin (pqP A B r f th), Fin (pqQ A B r f th)).
Proof.
  intros H1 H2 H3 H4 f A B r. unfold EM_PQ_spheroid.
  repeat (first [fl1 | rewrite fdiv_fin by assumption]; cbv beta). fold A.
  rewrite (fdiv_fin m _ 3) by lra. repeat (fl1; cbv beta). rewrite (fdiv_fin m _ _ H3). rewrite !(fdiv_fin m _ 4) by lra.
  rewrite !(fdiv_fin NumPy _ 2) by lra. repeat (fl1; cbv beta). fold A f B.
  replace (Gm / (Km + 4/3*Gm)) with r by reflexivity.
  intros N2 N3 N4. clearbody f A B r.
  fold (pF1 A r f th) (pF2 A B r f th) (pF3 A r f th) (pF4 A r f th) (pF5 A B r f th) (pF6 A B r f th) (pF7 A B r f th) (pF8 A B r f th) (pF9 A B r f th).
  assert (N24 : pF2 A B r f th * pF4 A r f th <> 0) by (apply Rmult_integral_contrapositive_currified; assumption).
  repeat (first [fl1 | rewrite fdiv_fin by assumption | rewrite fdiv_fin by lra]; cbv beta).
  reteq; unfold pqP, pqQ; field; auto.
Qed.

Section PQE.
Variables (m : mode) (Km Gm Ki : R).
Hypotheses (HK : 0 < Km) (HG : 0 < Gm) (HKi : 0 <= Ki).

Lemma PQ_spheroid_equal_G al th : 1 - al^2 <> 0 ->
  EM_PQ_spheroid (fdiv m) (Fin Km) (Fin Gm) (Fin Ki) (Fin Gm) (Fin al) (Fin th)
  = Ret (Fin ((Km + 4/3*Gm) / (Ki + 4/3*Gm)), Fin 1).
Proof.
  intros Hal.
  assert (EA : Gm / Gm - 1 = 0) by (field; lra).
  assert (EB : (Ki / Km - Gm / Gm) / 3 * (3 - 4 * (Gm / (Km + 4/3*Gm))) = (Ki - Km) / (Km + 4/3*Gm)) by (field; lra).
  assert (E1 : 1 + (Ki - Km) / (Km + 4/3*Gm) = (Ki + 4/3*Gm) / (Km + 4/3*Gm)) by (field; lra).
  assert (E2 : 0 < (Ki + 4/3*Gm) / (Km + 4/3*Gm)) by (apply Rdiv_lt_0_compat; lra).
  assert (F2 : forall f, pF2 (Gm / Gm - 1) ((Ki / Km - Gm / Gm) / 3) (Gm / (Km + 4/3*Gm)) f th = (Ki + 4/3*Gm) / (Km + 4/3*Gm)).
  { intros f. unfold pF2. rewrite EA, EB. rewrite <- E1. ring. }
  assert (F1 : forall f, pF1 (Gm / Gm - 1) (Gm / (Km + 4/3*Gm)) f th = 1) by (intros; unfold pF1; rewrite EA; ring).
  assert (F3 : forall f, pF3 (Gm / Gm - 1) (Gm / (Km + 4/3*Gm)) f th = 1) by (intros; unfold pF3; rewrite EA; ring).
  assert (F4 : forall f, pF4 (Gm / Gm - 1) (Gm / (Km + 4/3*Gm)) f th = 1) by (intros; unfold pF4; rewrite EA; field; lra).
  rewrite PQ_spheroid_eval by (first [lra | rewrite ?F2, ?F3, ?F4; lra]).
  unfold pqP, pqQ. rewrite F1, F2, F3, F4. reteq; [field; lra|].
  unfold pF5, pF6, pF7, pF8, pF9. rewrite EA.
  set (b := (Ki / Km - Gm / Gm) / 3 * (3 - 4 * (Gm / (Km + 4/3*Gm)))) in *.
  replace ((Ki / Km - Gm / Gm) / 3 * th * (3 - 4 * (Gm / (Km + 4/3*Gm)))) with (b * th) by (unfold b; ring).
  replace ((Ki / Km - Gm / Gm) / 3 * (1 - th) * (3 - 4 * (Gm / (Km + 4/3*Gm)))) with (b * (1 - th)) by (unfold b; ring).
  rewrite <- E1, <- EB. assert (1 + b <> 0) by (rewrite EB; lra). field. split; lra.
Qed.
Lemma theta_oblate al : 0 <= al < 1 -> exists th, EM_theta_oblate m (Fin al) = Fin th /\
  th = al / Rpower (1 - al^2) (3/2) * (acos al - al * sqrt (1 - al^2)).
Proof.
  intros H. unfold EM_theta_oblate. assert (0 < 1 - al^2) by nra.
  repeat fl1. rewrite fpow_fin by lra. rewrite fdiv_fin by (apply Rgt_not_eq, exp_pos).
  rewrite farccos_fin by lra. rewrite fsqrt_fin by lra. repeat fl1. eauto.
Qed.
Lemma theta_prolate al : 1 < al -> exists th, EM_theta_prolate m (Fin al) = Fin th /\
  th = al / Rpower (al^2 - 1) (3/2) * (al * Rpower (al^2 - 1) (1/2) - 1 / cosh al).
Proof.
  intros H. unfold EM_theta_prolate. assert (0 < al^2 - 1) by nra.
  repeat fl1. rewrite !fpow_fin by lra. rewrite fdiv_fin by (apply Rgt_not_eq, exp_pos).
  rewrite fdiv_fin. 2:{ unfold cosh. assert (P := exp_pos al). assert (Q := exp_pos (-al)). lra. }
  repeat fl1. eauto.
Qed.
Lemma PQ_equal_G al : 0 < al ->
  EM_PQ m (Fin Km) (Fin Gm) (Fin Ki) (Fin Gm) al = Ret (Fin ((Km + 4/3*Gm) / (Ki + 4/3*Gm)), Fin 1).
Proof.
  intros Ha. unfold EM_PQ. destruct (Req_EM_T al 1) as [->|N].
  - fls. assert (0 < Gm / 6 * (9 * Km + 8 * Gm) / (Km + 2 * Gm)) by pos.
    set (xi := Gm / 6 * (9 * Km + 8 * Gm) / (Km + 2 * Gm)) in *. fls. reteq; field; lra.
  - destruct (Rlt_dec al 1).
    + destruct (theta_oblate al) as (th & -> & _); [lra|]. rewrite bind_fin. apply PQ_spheroid_equal_G. nra.
    + destruct (theta_prolate al) as (th & -> & _); [lra|]. rewrite bind_fin. apply PQ_spheroid_equal_G. nra.
Qed.
End PQE.

(** A nearly spherical empty prolate pore: the value of P is below 1. *)
Lemma cosh_wit : let x := 221/220 in 1 <= cosh x <= 2.
Proof.
  cbv zeta. unfold cosh.
  assert (E1 : exp (221/220) = exp 1 * exp (1/220)) by (rewrite <- exp_plus; f_equal; field).
  assert (L1 := exp_ineq1_le (221/220)). assert (L2 := exp_ineq1_le (- (1/220))). assert (U := exp_le_3).
  assert (P2 := exp_pos (1/220)). assert (P3 := exp_pos (- (221/220))).
  assert (I : exp (- (1/220)) * exp (1/220) = 1) by (rewrite <- exp_plus, <- exp_0; f_equal; ring).
  assert (J : exp (- (221/220)) * exp (221/220) = 1) by (rewrite <- exp_plus, <- exp_0; f_equal; ring).
  assert (U2 : exp (1/220) <= 220/219) by nra.
  assert (U3 : exp (221/220) <= 3 * (220/219)) by (rewrite E1; assert (P1 := exp_pos 1); nra).
  assert (U4 : exp (- (221/220)) <= 1/2) by nra.
  lra.
Qed.
Lemma PQ_prolate_wit m : exists P Q,
  EM_PQ m (Fin 4) (Fin 3) (Fin 0) (Fin 0) (221/220) = Ret (Fin P, Fin Q) /\ 0 < P < 1.
Proof.
  unfold EM_PQ. destruct (Req_EM_T (221/220) 1); [lra|]. destruct (Rlt_dec (221/220) 1); [lra|].
  destruct (theta_prolate m (221/220)) as (th & -> & Eth); [lra|]. rewrite bind_fin.
  assert (Es : (221/220)^2 - 1 = (21/220) * (21/220)) by field.
  assert (R1 : Rpower ((221/220)^2 - 1) (1/2) = 21/220).
  { replace (1/2) with (/2) by field. rewrite Es, Rpower_sqrt by lra. apply sqrt_square; lra. }
  assert (R3 : Rpower ((221/220)^2 - 1) (3/2) = (21/220)^3).
  { replace (3/2) with (1 + 1/2) by field. rewrite Rpower_plus, R1, Rpower_1 by lra. rewrite Es. ring. }
  rewrite R1, R3 in Eth. destruct cosh_wit as (C1 & C2).
  assert (D1 : 1/2 <= 1 / cosh (221/220) <= 1).
  { split; unfold Rdiv; rewrite !Rmult_1_l.
    - apply Rinv_le_contravar; lra.
    - apply Rle_trans with (/1); [apply Rinv_le_contravar; lra|rewrite Rinv_1; lra]. }
  set (c := 1 / cosh (221/220)) in *.
  assert (Th : -1045 <= th <= -466) by (rewrite Eth; split; lra). clear Eth.
  assert (Ef : (221/220)^2 * (3 * th - 2) / (1 - (221/220)^2) = - (221/21)^2 * (3 * th - 2)) by field.
  set (f := - (221/21)^2 * (3 * th - 2)) in *.
  assert (HF1 : pF1 (0/3 - 1) (3 / (4 + 4/3*3)) f th = 1/2 - 15/16 * f - 9/16 * th) by (unfold pF1; field).
  assert (HF2 : pF2 (0/3 - 1) ((0/4 - 0/3)/3) (3 / (4 + 4/3*3)) f th =
     - 3/2 * (f + th) + 3/8 * (3/2 * f + 5/2 * th) + 3/4 * (5/8 * f + 11/8 * th - 3/4 * th^2)) by (unfold pF2; field).
  assert (HF3 : pF3 (0/3 - 1) (3 / (4 + 4/3*3)) f th = 5/8 * f + 9/8 * th) by (unfold pF3; field).
  assert (HF4 : pF4 (0/3 - 1) (3 / (4 + 4/3*3)) f th = 1 - (5/8 * f + 27/8 * th) / 4) by (unfold pF4; field).
  assert (Hf : f = - 146523/441 * th + 97682/441) by (unfold f; field).
  assert (L2 : pF2 (0/3 - 1) ((0/4 - 0/3)/3) (3 / (4 + 4/3*3)) f th < pF1 (0/3 - 1) (3 / (4 + 4/3*3)) f th).
  { rewrite HF1, HF2, Hf. nra. }
  assert (L1 : pF1 (0/3 - 1) (3 / (4 + 4/3*3)) f th < 0) by (rewrite HF1, Hf; lra).
  rewrite PQ_spheroid_eval; rewrite ?Ef; try lra.
  do 2 eexists. split; [reflexivity|]. unfold pqP.
  set (a := pF1 _ _ _ _) in *. set (b := pF2 _ _ _ _ _) in *.
  replace (a / b) with ((-a) / (-b)) by (field; lra). split; [apply Rdiv_lt_0_compat; lra|].
  apply Rmult_lt_reg_r with (-b); [lra|]. unfold Rdiv. rewrite Rmult_assoc, Rinv_l; lra.
Qed.

(** *** Berryman's equations when all phases share one shear modulus (Hill). *)
Section Hill.
Variables (G Ks : R).
Hypotheses (HG : 0 < G) (HKs : 0 < Ks).
Lemma PQ_elem_equal_G Ki a : 0 <= Ki -> 0 <= a -> a <> 1 ->
  EM_PQ_elem (Fin Ks) (Fin G) (Fin Ki) (Fin G) a = Ret (Fin ((Ks + 4/3*G) / (Ki + 4/3*G)), Fin 1).
Proof.
  intros HKi Ha N. unfold EM_PQ_elem.
  destruct (Rlt_dec a 1).
  - destruct (theta_oblate NumPy a) as (th & -> & _); [lra|]. rewrite bind_fin.
    rewrite PQ_spheroid_equal_G by nra. rewrite call_ret. destruct (Req_EM_T a 1); [contradiction|reflexivity].
  - destruct (Rlt_dec 1 a); [|lra].
    destruct (theta_prolate NumPy a) as (th & -> & _); [lra|]. rewrite bind_fin.
    rewrite PQ_spheroid_equal_G by nra. rewrite call_ret. destruct (Req_EM_T a 1); [contradiction|reflexivity].
Qed.
(** Phases as triples (fraction, bulk modulus, aspect ratio). *)
Lemma PQ_elems_equal_G e (L : list (R * R * R)) : (forall p, In p L -> 0 <= snd (fst p) /\ 0 <= snd p /\ snd p <> 1) ->
  EM_PQ_elems e (Fin Ks) (Fin G) (map (fun p => Fin (snd (fst p))) L) (map (fun _ => Fin G) L) (map snd L)
  = Ret (map (fun p => Fin ((Ks + 4/3*G) / (snd (fst p) + 4/3*G))) L, map (fun _ => Fin 1) L).
Proof.
  induction L as [|p L IH]; intros H; [reflexivity|]. cbn [map EM_PQ_elems].
  destruct (H p (or_introl eq_refl)) as (A & B & C). rewrite PQ_elem_equal_G by auto. rewrite call_ret.
  rewrite IH by (intros; apply H; right; auto). reflexivity.
Qed.
Lemma clobber_ok dt a : 0 < a -> let b := (if Req_EM_T a 1 then match dt with DFloat => 0.999 | DInt => 0 end else a) in
  0 <= b /\ b <> 1.
Proof. intros H b. unfold b. destruct (Req_EM_T a 1); [destruct dt; dec|]; lra. Qed.


Lemma Berryman_equal_G dt (L : list (R * R * R)) : (forall p, In p L -> 0 <= snd (fst p) /\ 0 < snd p) ->
  exists al',
  EM_Berryman_func dt (Fin Ks) (Fin G) (map (fun p => Fin (snd (fst p))) L) (map (fun _ => Fin G) L)
    (map (fun p => Fin (fst (fst p))) L) (map snd L)
  = Ret ((Fin (sumf (fun p => fst (fst p) * (snd (fst p) - Ks) * ((Ks + 4/3*G) / (snd (fst p) + 4/3*G))) L), Fin 0), al').
Proof.
  intros H. unfold EM_Berryman_func, EM_PQ_vectorize, EM_PQ_clobber.
  set (cl := fun a : R => if Req_EM_T a 1 then match dt with DFloat => 0.999 | DInt => 0 end else a).
  set (L' := map (fun p => (fst p, cl (snd p))) L).
  replace (map (fun p => Fin (snd (fst p))) L) with (map (fun p => Fin (snd (fst p))) L')
    by (unfold L'; rewrite map_map; reflexivity).
  replace (map (fun _ : R * R * R => Fin G) L) with (map (fun _ : R * R * R => Fin G) L')
    by (unfold L'; rewrite map_map; reflexivity).
  replace (map (fun p => Fin (fst (fst p))) L) with (map (fun p => Fin (fst (fst p))) L')
    by (unfold L'; rewrite map_map; reflexivity).
  replace (map cl (map snd L)) with (map snd L') by (unfold L'; rewrite !map_map; reflexivity).
  rewrite PQ_elems_equal_G.
  2:{ intros p Hp. unfold L' in Hp. apply in_map_iff in Hp as (q & <- & Hq). cbn [fst snd].
      destruct (H q Hq) as (A & B). split; [exact A|]. apply (clobber_ok dt). exact B. }
  rewrite !call_ret. cbv beta iota zeta. rewrite !map_map. repeat (rewrite !np_bc_map; cbn [call]).
  assert (E1 : forall M : list (R * R * R), map (fun x => fmul (fmul (Fin (fst (fst x))) (fsub (Fin (snd (fst x))) (Fin Ks))) (Fin ((Ks + 4/3*G) / (snd (fst x) + 4/3*G)))) M
     = map (fun x => Fin (fst (fst x) * (snd (fst x) - Ks) * ((Ks + 4/3*G) / (snd (fst x) + 4/3*G)))) M) by reflexivity.
  rewrite E1, fsum_map, bind_fin. cbn [call]. repeat (rewrite !np_bc_map; cbn [call]).
  assert (E2 : forall M : list (R * R * R), map (fun x => fmul (fmul (Fin (fst (fst x))) (fsub (Fin G) (Fin G))) (Fin 1)) M
     = map (fun x => Fin 0) M). { intros M. apply map_ext. intros x. repeat fl1. f_equal. ring. }
  rewrite E2, (fsum_map (fun _ => 0)), bind_fin.
  eexists. unfold L'. unfold sumf at 1. rewrite map_map. cbn [fst snd]. 
  replace (sumf (fun _ : R * R * R => 0) (map (fun p => (fst p, cl (snd p))) L)) with 0; [reflexivity|].
  unfold sumf. rewrite map_map. clear. induction L as [|x L IH]; [reflexivity|]. cbn [map sumR]. rewrite <- IH. ring.
Qed.
Lemma Hill_root (L : list (R * R * R)) : (forall p, In p L -> 0 <= snd (fst p)) -> sumf (fun p => fst (fst p)) L = 1 ->
  (sumf (fun p => fst (fst p) * (snd (fst p) - Ks) * ((Ks + 4/3*G) / (snd (fst p) + 4/3*G))) L = 0
   <-> (Ks + 4/3*G) * sumf (fun p => fst (fst p) / (snd (fst p) + 4/3*G)) L = 1).
Proof.
  intros H S.
  assert (E : sumf (fun p => fst (fst p) * (snd (fst p) - Ks) * ((Ks + 4/3*G) / (snd (fst p) + 4/3*G))) L
    = (Ks + 4/3*G) * (1 - (Ks + 4/3*G) * sumf (fun p => fst (fst p) / (snd (fst p) + 4/3*G)) L)).
  { rewrite <- S, <- sumf_scal, <- sumf_minus, <- sumf_scal. apply sumf_ext. apply Forall_forall. intros p Hp.
    specialize (H p Hp). field. lra. }
  rewrite E. split; intros Q.
  - apply Rmult_integral in Q. destruct Q; lra.
  - rewrite Q. ring.
Qed.
End Hill.

(** Identical phases: zero residual. *)

(** ** Self-consistent spherical pores *)
Section SC.
Variables (m : mode) (Ks Gs : R).
Hypotheses (HK : 0 < Ks) (HG : 0 < Gs).
Definition kst (phi K G : R) : R := 1 / (1 / Ks + (1 / K + 3 / (4 * G)) * phi).
Definition gst (phi K G : R) : R := 1 / (1 / Gs + (15 * K + 20 * G) / (9 * K + 8 * G) * phi / G).

Lemma kst_den phi K G : 0 <= phi -> 0 < K -> 0 < G -> 0 < 1 / Ks + (1 / K + 3 / (4 * G)) * phi.
Proof.
  intros. assert (0 < 1 / Ks) by (apply Rdiv_lt_0_compat; lra). assert (0 < 1 / K) by (apply Rdiv_lt_0_compat; lra).
  assert (0 < 3 / (4 * G)) by (apply Rdiv_lt_0_compat; lra). nra.
Qed.
Lemma gst_den phi K G : 0 <= phi -> 0 < K -> 0 < G -> 0 < 1 / Gs + (15 * K + 20 * G) / (9 * K + 8 * G) * phi / G.
Proof.
  intros. assert (0 < 1 / Gs) by (apply Rdiv_lt_0_compat; lra).
  assert (0 < (15 * K + 20 * G) / (9 * K + 8 * G)) by (apply Rdiv_lt_0_compat; lra).
  assert (0 < / G) by (apply Rinv_0_lt_compat; lra).
  assert (0 <= (15 * K + 20 * G) / (9 * K + 8 * G) * phi / G) by (unfold Rdiv at 1; apply Rmult_le_pos; [|lra]; apply Rmult_le_pos; lra).
  lra.
Qed.
Lemma kst_pos phi K G : 0 <= phi -> 0 < K -> 0 < G -> 0 < kst phi K G.
Proof. intros. apply Rdiv_lt_0_compat; [lra|]. apply kst_den; auto. Qed.
Lemma gst_pos phi K G : 0 <= phi -> 0 < K -> 0 < G -> 0 < gst phi K G.
Proof. intros. apply Rdiv_lt_0_compat; [lra|]. apply gst_den; auto. Qed.
Lemma inv_le a b : 0 < a -> a <= b -> 1 / b <= 1 / a.
Proof. intros. unfold Rdiv. rewrite !Rmult_1_l. apply Rinv_le_contravar; lra. Qed.
Lemma kst_mono phi phi' K K' G G' : 0 <= phi' -> phi' <= phi -> 0 < K -> K <= K' -> 0 < G -> G <= G' ->
  kst phi K G <= kst phi' K' G'.
Proof.
  intros. apply inv_le; [apply kst_den; lra|].
  assert (1 / K' <= 1 / K) by (apply inv_le; lra).
  assert (3 / (4 * G') <= 3 / (4 * G)). { unfold Rdiv. apply Rmult_le_compat_l; [lra|]. apply Rinv_le_contravar; lra. }
  assert (0 < 1 / K') by (apply Rdiv_lt_0_compat; lra). assert (0 < 3 / (4 * G')) by (apply Rdiv_lt_0_compat; lra).
  nra.
Qed.
Lemma gh_mono K K' G G' : 0 < K -> K <= K' -> 0 < G -> G <= G' ->
  (15 * K' + 20 * G') / (9 * K' + 8 * G') / G' <= (15 * K + 20 * G) / (9 * K + 8 * G) / G.
Proof.
  intros.
  assert (E : forall a b c, b <> 0 -> c <> 0 -> a / b / c = a / (b * c)) by (intros; field; auto).
  rewrite !E by lra.
  apply Rle_trans with ((15 * K + 20 * G') / ((9 * K + 8 * G') * G')).
  - apply Rmult_le_reg_r with ((9 * K' + 8 * G') * G' * (9 * K + 8 * G')). { repeat apply Rmult_lt_0_compat; lra. }
    field_simplify; try lra.
    apply Rminus_le. ring_simplify.
    replace (-60 * K' * G' ^ 2 + 60 * G' ^ 2 * K) with (60 * (G' ^ 2 * (K - K'))) by ring.
    assert (0 <= G'^2) by apply pow2_ge_0. nra.
  - apply Rmult_le_reg_r with ((9 * K + 8 * G') * G' * ((9 * K + 8 * G) * G)). { repeat apply Rmult_lt_0_compat; lra. }
    replace ((15 * K + 20 * G') / ((9 * K + 8 * G') * G') * ((9 * K + 8 * G') * G' * ((9 * K + 8 * G) * G)))
      with ((15 * K + 20 * G') * ((9 * K + 8 * G) * G)) by (field; lra).
    replace ((15 * K + 20 * G) / ((9 * K + 8 * G) * G) * ((9 * K + 8 * G') * G' * ((9 * K + 8 * G) * G)))
      with ((15 * K + 20 * G) * ((9 * K + 8 * G') * G')) by (field; lra).
    apply Rminus_le.
    replace ((15 * K + 20 * G') * ((9 * K + 8 * G) * G) - (15 * K + 20 * G) * ((9 * K + 8 * G') * G'))
      with ((G - G') * (135 * K^2 + 120 * K * (G + G') + 160 * G * G')) by ring.
    assert (0 < K^2) by (apply pow_lt; lra). assert (0 < K * (G + G')) by (apply Rmult_lt_0_compat; lra). assert (0 < G * G') by (apply Rmult_lt_0_compat; lra). nra.
Qed.
Lemma gst_mono phi phi' K K' G G' : 0 <= phi' -> phi' <= phi -> 0 < K -> K <= K' -> 0 < G -> G <= G' ->
  gst phi K G <= gst phi' K' G'.
Proof.
  intros. apply inv_le; [apply gst_den; lra|]. assert (M := gh_mono K K' G G' ltac:(lra) ltac:(lra) ltac:(lra) ltac:(lra)).
  assert (0 < (15 * K' + 20 * G') / (9 * K' + 8 * G') / G') by (repeat apply Rdiv_lt_0_compat; lra).
  replace ((15 * K' + 20 * G') / (9 * K' + 8 * G') * phi' / G') with ((15 * K' + 20 * G') / (9 * K' + 8 * G') / G' * phi') by (field; lra).
  replace ((15 * K + 20 * G) / (9 * K + 8 * G) * phi / G) with ((15 * K + 20 * G) / (9 * K + 8 * G) / G * phi) by (field; lra).
  nra.
Qed.

(** The iterates. *)
Fixpoint sc (phi : R) (n : nat) : R * R :=
  match n with
  | O => (Ks, Gs)
  | S n => let '(K, G) := sc phi n in let K' := kst phi K G in (K', gst phi K' G)
  end.
Lemma sc_pos phi n : 0 <= phi -> 0 < fst (sc phi n) /\ 0 < snd (sc phi n).
Proof.
  intros H. induction n as [|n IH]; [cbn; auto|]. cbn [sc]. destruct (sc phi n) as [K G]. cbn [fst snd] in *.
  assert (0 < kst phi K G) by (apply kst_pos; lra). split; [auto|apply gst_pos; lra].
Qed.
Lemma sc_step phi n : sc phi (S n) = (kst phi (fst (sc phi n)) (snd (sc phi n)),
   gst phi (kst phi (fst (sc phi n)) (snd (sc phi n))) (snd (sc phi n))).
Proof. cbn [sc]. destruct (sc phi n); reflexivity. Qed.
Lemma sc_recurrence phi n : 0 <= phi ->
  1 / fst (sc phi (S n)) = 1 / Ks + (1 / fst (sc phi n) + 3 / (4 * snd (sc phi n))) * phi /\
  1 / snd (sc phi (S n)) = 1 / Gs + (15 * fst (sc phi (S n)) + 20 * snd (sc phi n)) / (9 * fst (sc phi (S n)) + 8 * snd (sc phi n)) * phi / snd (sc phi n).
Proof.
  intros H. destruct (sc_pos phi n H) as (A & B). rewrite sc_step. cbn [fst snd]. set (K := fst (sc phi n)) in *. set (G := snd (sc phi n)) in *.
  assert (P := kst_pos phi K G H A B). split.
  - unfold kst. assert (D := kst_den phi K G H A B). set (d := 1 / Ks + _) in *. field. lra.
  - set (k := kst phi K G) in *. unfold gst. assert (D := gst_den phi k G H P B). set (d := 1 / Gs + _) in *. field. lra.
Qed.
Lemma SC_step_eval phi K G : 0 <= phi -> 0 < K -> 0 < G ->
  EM_SC_step m (Fin phi) (Fin Ks) (Fin Gs) (Fin K) (Fin G) = Ret (Fin (kst phi K G), Fin (gst phi (kst phi K G) G)).
Proof.
  intros. unfold EM_SC_step. assert (D := kst_den phi K G ltac:(lra) ltac:(lra) ltac:(lra)).
  assert (P := kst_pos phi K G ltac:(lra) ltac:(lra) ltac:(lra)).
  assert (D2 := gst_den phi (kst phi K G) G ltac:(lra) ltac:(lra) ltac:(lra)).
  repeat (first [fl1 | rewrite fdiv_fin by lra]; cbv beta). fold (kst phi K G).
  repeat (first [fl1 | rewrite fdiv_fin by lra]; cbv beta). reflexivity.
Qed.
Lemma SC_loop_eval phi n K G : 0 <= phi -> 0 < K -> 0 < G ->
  EM_SC_loop m (S n) (Fin phi) (Fin Ks) (Fin Gs) (Fin K) (Fin G)
  = EM_SC_loop m n (Fin phi) (Fin Ks) (Fin Gs) (Fin (kst phi K G)) (Fin (gst phi (kst phi K G) G)).
Proof. intros. cbn [EM_SC_loop]. rewrite SC_step_eval by auto. reflexivity. Qed.
Lemma SC_loop_from phi n k : 0 <= phi ->
  EM_SC_loop m n (Fin phi) (Fin Ks) (Fin Gs) (Fin (fst (sc phi k))) (Fin (snd (sc phi k)))
  = Ret (Fin (fst (sc phi (k + n))), Fin (snd (sc phi (k + n)))).
Proof.
  intros H. revert k. induction n as [|n IH]; intros k.
  - rewrite Nat.add_0_r. reflexivity.
  - destruct (sc_pos phi k H). rewrite SC_loop_eval by auto.
    specialize (IH (S k)). rewrite sc_step in IH. cbn [fst snd] in IH. rewrite IH.
    replace (k + S n)%nat with (S k + n)%nat by lia. reflexivity.
Qed.
Lemma SC_eval phi n : 0 <= phi ->
  EM_SC m (Fin phi) (Fin Ks) (Fin Gs) (Z.of_nat n) = Ret (Fin (fst (sc phi n)), Fin (snd (sc phi n))).
Proof. intros H. unfold EM_SC. rewrite Nat2Z.id. exact (SC_loop_from phi n 0 H). Qed.
Lemma kst_le phi K G : 0 <= phi -> 0 < K -> 0 < G -> kst phi K G <= Ks.
Proof.
  intros. apply Rle_trans with (1 / (1 / Ks)); [|right; field; lra].
  apply inv_le with (a := 1 / Ks); [apply Rdiv_lt_0_compat; lra|].
  assert (0 < 1 / K) by (apply Rdiv_lt_0_compat; lra). assert (0 < 3 / (4 * G)) by (apply Rdiv_lt_0_compat; lra). nra.
Qed.
Lemma gst_le phi K G : 0 <= phi -> 0 < K -> 0 < G -> gst phi K G <= Gs.
Proof.
  intros. apply Rle_trans with (1 / (1 / Gs)); [|right; field; lra].
  apply inv_le with (a := 1 / Gs); [apply Rdiv_lt_0_compat; lra|].
  assert (0 < (15 * K + 20 * G) / (9 * K + 8 * G) / G) by (repeat apply Rdiv_lt_0_compat; lra).
  replace ((15 * K + 20 * G) / (9 * K + 8 * G) * phi / G) with ((15 * K + 20 * G) / (9 * K + 8 * G) / G * phi) by (field; lra). nra.
Qed.
Lemma sc_le_start phi n : 0 <= phi -> fst (sc phi n) <= Ks /\ snd (sc phi n) <= Gs.
Proof.
  intros H. destruct n as [|n]; [cbn; lra|]. rewrite sc_step. cbn [fst snd]. destruct (sc_pos phi n H) as (A & B).
  split; [apply kst_le; auto|apply gst_le; auto]. apply kst_pos; auto.
Qed.
Lemma sc_decr phi n : 0 <= phi -> fst (sc phi (S n)) <= fst (sc phi n) /\ snd (sc phi (S n)) <= snd (sc phi n).
Proof.
  intros H. induction n as [|n IH].
  - exact (sc_le_start phi 1 H).
  - destruct (sc_pos phi n H), (sc_pos phi (S n) H). destruct IH as (I1 & I2).
    assert (E1 : fst (sc phi (S n)) = kst phi (fst (sc phi n)) (snd (sc phi n))) by (rewrite sc_step; reflexivity).
    assert (E2 : snd (sc phi (S n)) = gst phi (fst (sc phi (S n))) (snd (sc phi n))) by (rewrite E1, sc_step; reflexivity).
    rewrite (sc_step phi (S n)). cbn [fst snd].
    assert (Q : kst phi (fst (sc phi (S n))) (snd (sc phi (S n))) <= fst (sc phi (S n))) by (rewrite E1 at 2; apply kst_mono; lra).
    split; [exact Q|]. rewrite E2 at 3. apply gst_mono; try lra. apply kst_pos; lra.
Qed.
Lemma sc_decr_le phi n k : 0 <= phi -> (n <= k)%nat -> fst (sc phi k) <= fst (sc phi n) /\ snd (sc phi k) <= snd (sc phi n).
Proof. intros H L. induction L as [|k L IH]; [lra|]. destruct (sc_decr phi k H). lra. Qed.
Lemma sc_phi phi phi' n : 0 <= phi' -> phi' <= phi -> fst (sc phi n) <= fst (sc phi' n) /\ snd (sc phi n) <= snd (sc phi' n).
Proof.
  intros H H'. assert (H0 : 0 <= phi) by lra. induction n as [|n IH]; [cbn; lra|].
  destruct (sc_pos phi n H0), (sc_pos phi' n H). rewrite !sc_step. cbn [fst snd].
  assert (Q : kst phi (fst (sc phi n)) (snd (sc phi n)) <= kst phi' (fst (sc phi' n)) (snd (sc phi' n))) by (apply kst_mono; lra).
  split; [exact Q|]. apply gst_mono; try lra. apply kst_pos; lra.
Qed.
Lemma sc_zero n : sc 0 n = (Ks, Gs).
Proof.
  induction n as [|n IH]; [reflexivity|]. rewrite sc_step, IH. cbn [fst snd].
  assert (E : kst 0 Ks Gs = Ks) by (unfold kst; field; lra). rewrite E. f_equal. unfold gst. field. lra.
Qed.
(** Below one half porosity the iterates stay above a positive bound. *)
Lemma sc_lower phi g n : 0 <= phi -> phi < 1/2 -> 0 < g -> g <= Gs -> 4/3 * g <= Ks ->
  4/3 * ((1 - 2*phi) * g) <= fst (sc phi n) /\ (1 - 2*phi) * g <= snd (sc phi n).
Proof.
  intros H Hh Hg G1 G2. induction n as [|n (I1 & I2)].
  - cbn. nra.
  - set (b := (1 - 2*phi) * g) in *. assert (0 < b) by (unfold b; apply Rmult_lt_0_compat; lra).
    destruct (sc_pos phi n H). rewrite sc_step. cbn [fst snd].
    assert (Ig : 1 / Gs <= 1 / g) by (apply inv_le; lra).
    assert (Ik : 1 / Ks <= 1 / (4/3*g)) by (apply inv_le; lra).
    assert (Q1 : 4/3*b <= kst phi (fst (sc phi n)) (snd (sc phi n))).
    { apply Rle_trans with (kst phi (4/3*b) b); [|apply kst_mono; lra].
      unfold kst. replace (4/3*b) with (1 / (1 / (4/3*g) + (1 / (4/3*b) + 3/(4*b)) * phi)) at 1
        by (unfold b; field; unfold b in *; repeat split; nra).
      apply inv_le; [apply kst_den; lra|]. lra. }
    split; [exact Q1|]. apply Rle_trans with (gst phi (4/3*b) b); [|apply gst_mono; lra].
    unfold gst. replace b with (1 / (1 / g + (15 * (4/3*b) + 20 * b) / (9 * (4/3*b) + 8 * b) * phi / b)) at 1
        by (unfold b; field; unfold b in *; repeat split; nra).
    apply inv_le; [apply gst_den; lra|]. lra.
Qed.
End SC.
