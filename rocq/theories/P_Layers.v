(** * P_Layers: stacks of isotropic layers (C82). *)
From Verif Require Import Fl M_Utils M_EM M_Anis Spec Spec19 L_Utils L_Anis L_Layers.
Open Scope R_scope.

(** [Backus_of L] calls Backus with the three columns of the layer list. *)
Notation Backus_of L := (Anis_Backus (map (fun x => Fin (lv x)) L) (map (fun x => Fin (ll x)) L) (map (fun x => Fin (lg x)) L)).
(** C is the stiffness matrix of the Backus average of L. *)
Definition Backus_matrix (L : list layer) (C : rmat) : Prop := exists c11 c33 c13 c44 c66,
  Backus_of L = Ret (Fin c11, Fin c33, Fin c13, Fin c44, Fin c66) /\
  utils_write_VTI_matrix (Fin c11) (Fin c33) (Fin c13) (Fin c44) (Fin c66) = Ret (finmat C).
Lemma Backus_matrix_intro L : good_layers L -> Backus_matrix L (backus_mat L).
Proof. intros HL. do 5 eexists. split; [apply Backus_eval; auto|apply write_VTI_eval]. Qed.

(** The energy of the effective medium is the least energy of layer strains with the prescribed average. *)
Theorem C82_least_energy : forall L, good_layers L -> exists C, Backus_matrix L C /\
  forall e, (forall F, map fst F = L -> compatible e F -> energy C e <= mean_energy F) /\
            (exists F, map fst F = L /\ compatible e F /\ energy C e = mean_energy F).
Proof.
  intros L HL. exists (backus_mat L). split; [apply Backus_matrix_intro; auto|]. intros e. split.
  - intros F EF HC. apply energy_least; auto.
  - exists (best_field L e). split; [apply best_fst|]. split; [apply best_compatible; auto|apply best_energy; auto].
Qed.
Print Assumptions C82_least_energy.

(** Stiffer layers make a stiffer stack: no deformation costs less energy. *)
Theorem C82_stiffer_layers : forall P : list (layer * layer), good_layers (map fst P) -> good_layers (map snd P) ->
  Forall (fun p => lv (fst p) = lv (snd p) /\ lk (fst p) <= lk (snd p) /\ lg (fst p) <= lg (snd p)) P ->
  exists C C', Backus_matrix (map fst P) C /\ Backus_matrix (map snd P) C' /\ forall e, energy C e <= energy C' e.
Proof.
  intros P H1 H2 HP. exists (backus_mat (map fst P)), (backus_mat (map snd P)).
  split; [apply Backus_matrix_intro; auto|]. split; [apply Backus_matrix_intro; auto|]. intros e. apply energy_mono; auto.
Qed.
Print Assumptions C82_stiffer_layers.

(** The stack is stiffer than the isotropic solid with the Reuss averages of VRH and softer than the one with the Voigt
    averages. *)
Theorem C82_between_reuss_and_voigt : forall m L, good_layers L -> Forall (fun x => 0 < lk x) L ->
  exists C Kv Kr Kh Gv Gr Gh R V, Backus_matrix L C /\
    EM_VRH (map (fun x => Fin (lv x / sumf lv L)) L) (map (fun x => Fin (lk x)) L) = Ret (Fin Kv, Fin Kr, Fin Kh) /\
    EM_VRH (map (fun x => Fin (lv x / sumf lv L)) L) (map (fun x => Fin (lg x)) L) = Ret (Fin Gv, Fin Gr, Fin Gh) /\
    utils_write_iso m (Fin Kr) (Fin Gr) = Ret (finmat R) /\ utils_write_iso m (Fin Kv) (Fin Gv) = Ret (finmat V) /\
    forall e, energy R e <= energy C e <= energy V e.
Proof.
  intros m L HL HK. destruct (vrh_layers L lk HL HK) as (Kh & EK).
  destruct (vrh_layers L lg HL) as (Gh & EG); [apply HL|].
  do 9 eexists. split; [apply Backus_matrix_intro; auto|]. split; [exact EK|]. split; [exact EG|].
  split; [apply write_iso_eval|]. split; [apply write_iso_eval|]. intros e. split; [apply energy_reuss; auto|apply energy_voigt; auto].
Qed.
Print Assumptions C82_between_reuss_and_voigt.

(** Thomsen's parameters of a stack: gamma is not negative, delta is not above epsilon, and both become equalities exactly
    for a common shear modulus; a common ratio of the velocities gives delta = 0. *)
Theorem C82_thomsen_signs : forall m L den th, good_layers L -> Forall (fun x => 0 < lk x) L -> 0 < den ->
  exists c11 c33 c13 c44 c66 vp vsv vsh e g d,
  Backus_of L = Ret (Fin c11, Fin c33, Fin c13, Fin c44, Fin c66) /\
  Anis_Thomsen m (Fin c11) (Fin c33) (Fin c13) (Fin c44) (Fin c66) (Fin den) (Fin th) =
    Ret (Fin vp, Fin vsv, Fin vsh, Fin e, Fin g, Fin d) /\
  0 <= g /\ d <= e /\ (g = 0 <-> same_shear L) /\ (e = d <-> same_shear L) /\
  (forall r, Forall (fun x => lg x = r * (ll x + 2 * lg x)) L -> d = 0).
Proof.
  intros m L den th HL HK Hd.
  destruct (thomsen_layers L HL HK m den th Hd) as (c1 & c2 & c3 & c4 & c5 & a & b & c & e & g & d & E1 & E2 & R1 & R2 & R3 & R4 & R5 & _).
  exists c1, c2, c3, c4, c5, a, b, c, e, g, d. auto 10.
Qed.
Print Assumptions C82_thomsen_signs.

(** P-waves are not always faster along the layers: with a common P-wave modulus and different shear moduli epsilon is
    negative. *)
Theorem C82_fast_along_layers_refuted : forall m L den th M, good_layers L -> Forall (fun x => 0 < lk x) L -> 0 < den ->
  Forall (fun x => ll x + 2 * lg x = M) L -> ~ same_shear L ->
  exists c11 c33 c13 c44 c66 vp vsv vsh e g d,
  Backus_of L = Ret (Fin c11, Fin c33, Fin c13, Fin c44, Fin c66) /\ c11 < c33 /\
  Anis_Thomsen m (Fin c11) (Fin c33) (Fin c13) (Fin c44) (Fin c66) (Fin den) (Fin th) =
    Ret (Fin vp, Fin vsv, Fin vsh, Fin e, Fin g, Fin d) /\ e < 0.
Proof.
  intros m L den th M HL HK Hd HM NS.
  destruct (thomsen_layers L HL HK m den th Hd) as (c1 & c2 & c3 & c4 & c5 & a & b & c & e & g & d & E1 & E2 & R1 & R2 & R3 & R4 & R5 & R6).
  destruct (R6 M HM) as (R7 & R8).
  assert (N : e < 0) by (destruct R7; [auto|exfalso; auto]).
  exists c1, c2, c3, c4, c5, a, b, c, e, g, d. repeat split; auto.
  pose proof (Backus_eval L HL) as BE. unfold backus_call in *. rewrite E1 in BE. injection BE as B1 B2 B3 B4 B5.
  assert (P2 : 0 < c2).
  { rewrite B2. apply Rinv_0_lt_compat. apply avg_pos; auto. destruct HL as (_ & _ & _ & H4).
    eapply Forall_impl; [|exact H4]. cbn; intros; pos. }
  assert (P4 : 0 < c4).
  { rewrite B4. apply Rinv_0_lt_compat. apply avg_pos; auto. destruct HL as (_ & _ & H3 & _).
    eapply Forall_impl; [|exact H3]. cbn; intros; pos. }
  assert (NE : c2 <> c4).
  { pose proof (N_H L HL) as NH. pose proof (Q_pos L HL HK) as Q. intros C. rewrite B2, B4 in C.
    apply (f_equal Rinv) in C. rewrite !Rinv_inv in C. lra. }
  rewrite Thomsen_eval in E2 by auto. cbv zeta in E2. injection E2 as _ _ _ Ee _ _.
  destruct (Rlt_le_dec c1 c2) as [|C]; auto. exfalso.
  assert (0 <= (c1 - c2) / (2 * c2)) by (apply Rmult_le_pos; [lra|left; apply Rinv_0_lt_compat; lra]). lra.
Qed.
Print Assumptions C82_fast_along_layers_refuted.

(** Sand and shale; the last pair has one P-wave modulus. *)
Example C82_nonvacuous :
  let L := [(1, 5, 4); (2, 10, 8)] in let L' := [(1, 6, 4); (2, 4, 5)] in
  (good_layers L /\ Forall (fun x => 0 < lk x) L) /\
  (good_layers L' /\ Forall (fun x => 0 < lk x) L' /\ Forall (fun x => ll x + 2 * lg x = 14) L' /\ ~ same_shear L').
Proof.
  cbv zeta. unfold good_layers, lk, sumf, lv, ll, lg; simpl.
  repeat match goal with |- _ /\ _ => split | |- Forall _ (_ :: _) => apply Forall_cons | |- Forall _ [] => apply Forall_nil end;
    simpl; try lra.
  intros (G & HG). inversion HG as [|? ? A HG']; inversion HG' as [|? ? B _]; subst. unfold lv, lg in *; simpl in *. lra.
Qed.
