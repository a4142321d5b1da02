(** * Property theorems about EM.py: inclusions of general shape (C17, C19, C21, C69) and the iterated scheme for pores (C23). *)
From Verif Require Import Fl M_Utils M_EM Spec Spec3 Spec7 Spec12 RealLemmas L_Lists L_EM1 L_EM4 L_EM5 L_EM6 L_EM7 L_EM8 L_EM9 L_Prolate.
Open Scope R_scope.

(** ** C69: P and Q come from Eshelby's tensor *)
(** The notion used below determines P and Q. *)
Theorem C69_concentration_is_unique :
  forall S s Km Gm Ki Gi P Q P' Q',
  concentration S s Km Gm Ki Gi P Q -> concentration S s Km Gm Ki Gi P' Q' -> P = P' /\ Q = Q'.
Proof.
  intros S s Km Gm Ki Gi P Q P' Q' (E & t & H1 & H2 & HP & HQ) (E' & t' & H1' & H2' & HP' & HQ').
  assert (X : forall i j, (i < 3)%nat -> (j < 3)%nat -> E i j = E' i j).
  { intros i j Hi Hj. apply (proj1 (H1' j Hj (fun i => E i j))); [|exact Hi]. apply (H1 j Hj). auto. }
  assert (Y : forall i j, (i < j < 3)%nat -> t i j = t' i j).
  { intros i j Hij. apply (H2' i j Hij). apply (H2 i j Hij). reflexivity. }
  unfold sum3 in *. cbv beta in *. repeat rewrite X in HP by lia. repeat rewrite X in HQ by lia. rewrite !Y in HQ by lia. split; lra.
Qed.
Print Assumptions C69_concentration_is_unique.
Theorem C69_pq_is_eshelby :
  forall m Km Gm Ki Gi, 0 < Km -> 0 < Gm -> 0 <= Ki -> 0 <= Gi -> exists P Q : R -> R,
  (forall al, 0 < al <= 1 ->
    EM_PQ m (Fin Km) (Fin Gm) (Fin Ki) (Fin Gi) al = Ret (Fin (P al), Fin (Q al)) /\
    concentration (spheroid_S (poisson Km Gm) al) (spheroid_shear (poisson Km Gm) al) Km Gm Ki Gi (P al) (Q al) /\
    0 < P al /\ 0 < Q al) /\
  (* the sphere is the limit of the spheroids *)
  limit1_in P (fun al => 0 < al < 1) (P 1) 1 /\ limit1_in Q (fun al => 0 < al < 1) (Q 1) 1.
Proof.
  intros m Km Gm Ki Gi HK HG HKi HGi. exists (sphP Km Gm Ki Gi), (sphQ Km Gm Ki Gi). split; [intros; apply PQ_all; auto|].
  exact (PQ_lim1 Km Gm Ki Gi HK HG HKi HGi).
Qed.
Print Assumptions C69_pq_is_eshelby.
(** PQ_vectorize is PQ element by element, with 1 replaced by 0.999. *)
Theorem C69_vectorized_pq :
  forall Km Gm (L : list phase), 0 < Km -> 0 < Gm -> Forall passive L -> exists P Q : phase -> R,
  EM_PQ_vectorize DFloat (Fin Km) (Fin Gm) (map (fun p => Fin (ph_K p)) L) (map (fun p => Fin (ph_G p)) L) (map ph_al L)
  = Ret ((map (fun p => Fin (P p)) L, map (fun p => Fin (Q p)) L), map (fun p => if Req_EM_T (ph_al p) 1 then 0.999 else ph_al p) L) /\
  forall p, In p L -> EM_PQ NumPy (Fin Km) (Fin Gm) (Fin (ph_K p)) (Fin (ph_G p)) (if Req_EM_T (ph_al p) 1 then 0.999 else ph_al p) = Ret (Fin (P p), Fin (Q p)).
Proof.
  intros Km Gm L HK HG H. exists (phP Km Gm), (phQ Km Gm). split.
  - unfold EM_PQ_vectorize, EM_PQ_clobber. rewrite map_map.
    change (map (fun x => if Req_EM_T (ph_al x) 1 then 0.999 else ph_al x) L) with (map (fun p => al_used (ph_al p)) L).
    rewrite elems_phases by auto. reflexivity.
  - intros p Hp. rewrite List.Forall_forall in H. destruct (H p Hp) as (X & Y & Z & W). fold (al_used (ph_al p)). apply obl_eval; auto. apply al_used_in. exact W.
Qed.
Print Assumptions C69_vectorized_pq.

(** ** C69, C65: Eshelby's integral, and prolate inclusions *)
(** The shape enters Eshelby's tensor through one integral, which has one value for every spheroid. *)
Theorem C69_eshelby_integral_is_unique :
  forall al I1 I1', 0 < al -> eshelby_integral al I1 -> eshelby_integral al I1' -> I1 = I1'.
Proof. exact eshelby_unique. Qed.
Print Assumptions C69_eshelby_integral_is_unique.
(** Oblate spheroids: P and Q are the isotropic parts of the concentration tensor built on that integral. *)
Theorem C69_pq_from_eshelby_integral :
  forall m Km Gm Ki Gi al, 0 < Km -> 0 < Gm -> 0 <= Ki -> 0 <= Gi -> 0 < al < 1 -> exists I1 P Q,
  eshelby_integral al I1 /\ EM_PQ m (Fin Km) (Fin Gm) (Fin Ki) (Fin Gi) al = Ret (Fin P, Fin Q) /\
  concentration (mura_S I1 (poisson Km Gm) al) (mura_shear I1 (poisson Km Gm) al) Km Gm Ki Gi P Q.
Proof.
  intros m Km Gm Ki Gi al HK HG HKi HGi Ha. do 3 eexists. split; [apply oblate_integral; exact Ha|].
  split; [apply obl_eval; auto|]. exact (obl_conc Km Gm Ki Gi HK HG HKi HGi al Ha).
Qed.
Print Assumptions C69_pq_from_eshelby_integral.
(** Refuted for prolate spheroids: P and Q are built on the number below, in which 1/cosh stands where the integral has
    the inverse function arccosh. It is the integral only if ln(al + sqrt(al^2-1)) cosh(al) = 1, never for al >= 3/2. *)
Theorem C65_prolate_is_eshelby_refuted :
  forall m Km Gm Ki Gi al P Q, 0 < Km -> 0 < Gm -> 1 < al ->
  EM_PQ m (Fin Km) (Fin Gm) (Fin Ki) (Fin Gi) al = Ret (Fin P, Fin Q) ->
  let d := sqrt (al^2 - 1) in
  let I1 := 2 * PI * (al / d^3 * (al * d - 1 / cosh al)) in
  concentration (mura_S I1 (poisson Km Gm) al) (mura_shear I1 (poisson Km Gm) al) Km Gm Ki Gi P Q /\
  eshelby_integral al (2 * PI * al * (al * d - ln (al + d)) / d^3) /\
  (eshelby_integral al I1 <-> ln (al + d) * cosh al = 1) /\ (3/2 <= al -> ~ eshelby_integral al I1).
Proof.
  intros m Km Gm Ki Gi al P Q HK HG Ha E d I1. split; [exact (pro_conc m Km Gm Ki Gi al P Q HK HG Ha E)|].
  split; [exact (prolate_integral al Ha)|]. split; [exact (wrong_theta al Ha)|].
  intros Hl X. apply (wrong_theta_elongated al Hl). apply (wrong_theta al Ha). exact X.
Qed.
Print Assumptions C65_prolate_is_eshelby_refuted.
(** Refuted: the sphere is not the limit of prolate spheroids. For every inclusion whose two moduli differ from the
    matrix, P and Q tend to 0 as the aspect ratio decreases to 1, where the sphere has positive values. *)
Theorem C65_prolate_tends_to_sphere_refuted :
  forall m Km Gm Ki Gi, 0 < Km -> 0 < Gm -> 0 <= Ki -> 0 <= Gi -> Ki <> Km -> Gi <> Gm -> exists P Q : R -> R, exists eta, 0 < eta /\
  (forall al, 1 <= al < 1 + eta -> EM_PQ m (Fin Km) (Fin Gm) (Fin Ki) (Fin Gi) al = Ret (Fin (P al), Fin (Q al))) /\
  limit1_in P (fun al => 1 < al < 2) 0 1 /\ limit1_in Q (fun al => 1 < al < 2) 0 1 /\ 0 < P 1 /\ 0 < Q 1.
Proof.
  intros m Km Gm Ki Gi HK HG HKi HGi NK NG. destruct (pro_near m Km Gm Ki Gi HK HG NK NG) as (P & Q & eta & He & E & LP & LQ).
  destruct (PQ_all m Km Gm Ki Gi HK HG HKi HGi 1 ltac:(lra)) as (E1 & _ & P1 & Q1).
  exists (fun a => if Req_EM_T a 1 then sphP Km Gm Ki Gi 1 else P a), (fun a => if Req_EM_T a 1 then sphQ Km Gm Ki Gi 1 else Q a), eta.
  split; [exact He|]. split.
  { intros al Hal. destruct (Req_EM_T al 1) as [->|N]; [exact E1|]. apply E. split; [|lra]. destruct Hal as [[H|H] _]; [lra|congruence]. }
  split. { apply lim_ext with (1 := LP). intros x Hx. destruct (Req_EM_T x 1); [lra|reflexivity]. }
  split. { apply lim_ext with (1 := LQ). intros x Hx. destruct (Req_EM_T x 1); [lra|reflexivity]. }
  destruct (Req_EM_T 1 1); [auto|lra].
Qed.
Print Assumptions C65_prolate_tends_to_sphere_refuted.
(** A prolate case with a finite result: the witness of C65. *)
Example C65_prolate_nonvacuous m : exists P Q, EM_PQ m (Fin 4) (Fin 3) (Fin 0) (Fin 0) (221/220) = Ret (Fin P, Fin Q) /\ 1 < 221/220.
Proof. destruct (PQ_prolate_wit m) as (P & Q & E & _). exists P, Q. split; [exact E|lra]. Qed.

(** ** C17: the self-consistent equations *)
Theorem C17_self_consistent_equations :
  forall Ks Gs (L : list phase), 0 < Ks -> 0 < Gs -> Forall passive L -> exists P Q : phase -> R,
  Forall (fun p => let al := if Req_EM_T (ph_al p) 1 then 0.999 else ph_al p in
    concentration (esh_S (poisson Ks Gs) al) (esh_shear (poisson Ks Gs) al) Ks Gs (ph_K p) (ph_G p) (P p) (Q p)) L /\
  EM_Berryman_func DFloat (Fin Ks) (Fin Gs) (map (fun p => Fin (ph_K p)) L) (map (fun p => Fin (ph_G p)) L) (map (fun p => Fin (ph_x p)) L) (map ph_al L)
  = Ret ((Fin (sumf (fun p => ph_x p * (ph_K p - Ks) * P p) L), Fin (sumf (fun p => ph_x p * (ph_G p - Gs) * Q p) L)),
         map (fun p => if Req_EM_T (ph_al p) 1 then 0.999 else ph_al p) L).
Proof.
  intros Ks Gs L HK HG H. exists (phP Ks Gs), (phQ Ks Gs). split; [|apply Berryman_phases; auto].
  generalize (phases_conc Ks Gs HK HG L H). apply List.Forall_impl. intros p (A & _). exact A.
Qed.
Print Assumptions C17_self_consistent_equations.
(** Without any assumption on P and Q: a positive root lies between the phases' moduli. *)
Theorem C17_oblate_root_between_phases :
  forall Ks Gs (L : list phase) al', 0 < Ks -> 0 < Gs -> Forall passive L -> sumf ph_x L = 1 ->
  EM_Berryman_func DFloat (Fin Ks) (Fin Gs) (map (fun p => Fin (ph_K p)) L) (map (fun p => Fin (ph_G p)) L) (map (fun p => Fin (ph_x p)) L) (map ph_al L)
  = Ret ((Fin 0, Fin 0), al') -> between_some (map ph_K L) Ks /\ between_some (map ph_G L) Gs.
Proof.
  intros Ks Gs L al' HK HG H Hs E. assert (C := phases_conc Ks Gs HK HG L H).
  apply (Berryman_between DFloat Ks Gs (map ph_x L) (map ph_K L) (map ph_G L) (map ph_al L) al' (map (phP Ks Gs) L) (map (phQ Ks Gs) L)).
  - rewrite !map_length. reflexivity.
  - split; [|exact Hs]. apply List.Forall_map. revert H. apply List.Forall_impl. intros p (X & _). exact X.
  - rewrite (Berryman_phases Ks Gs HK HG L H) in E. injection E as _ _ <-. rewrite !map_map.
    unfold EM_PQ_vectorize, EM_PQ_clobber. rewrite map_map.
    change (map (fun x => if Req_EM_T (ph_al x) 1 then 0.999 else ph_al x) L) with (map (fun p => al_used (ph_al p)) L).
    rewrite elems_phases by auto. reflexivity.
  - apply List.Forall_map. revert C. apply List.Forall_impl. intros p (_ & X & _). exact X.
  - apply List.Forall_map. revert C. apply List.Forall_impl. intros p (_ & _ & X). exact X.
  - rewrite !map_map. exact E.
Qed.
Print Assumptions C17_oblate_root_between_phases.
(** Berryman_sc hands these equations to a solver, with the arithmetic means of the moduli as starting point. Whatever
    the solver: if what it returns from there is a positive root, it is between the phases. *)
Theorem C17_berryman_sc :
  forall fsolve (L : list phase) Ks Gs, L <> [] -> Forall passive L -> sumf ph_x L = 1 -> 0 < Ks -> 0 < Gs ->
  let mean f := Fin (sumf f L / INR (length L)) in
  let residual k g := call! (r, _) := EM_Berryman_func DFloat k g (map (fun p => Fin (ph_K p)) L) (map (fun p => Fin (ph_G p)) L) (map (fun p => Fin (ph_x p)) L) (map ph_al L) in Ret r in
  fsolve residual (mean ph_K, mean ph_G) = (Fin Ks, Fin Gs) -> residual (Fin Ks) (Fin Gs) = Ret (Fin 0, Fin 0) ->
  EM_Berryman_sc fsolve DFloat (map (fun p => Fin (ph_K p)) L) (map (fun p => Fin (ph_G p)) L) (map (fun p => Fin (ph_x p)) L) (map ph_al L)
    = Ret (Fin Ks, Fin Gs) /\ between_some (map ph_K L) Ks /\ between_some (map ph_G L) Gs.
Proof.
  intros fsolve L Ks Gs HL H Hs HK HG mean residual E R. split.
  - unfold EM_Berryman_sc. fold residual. rewrite !fsum_map, !map_length, !fdiv_fin by (apply not_0_INR; destruct L; [contradiction|discriminate]).
    fold (mean ph_K) (mean ph_G). rewrite E. reflexivity.
  - unfold residual in R. rewrite (Berryman_phases Ks Gs HK HG L H), call_ret in R.
    eapply C17_oblate_root_between_phases; eauto. rewrite (Berryman_phases Ks Gs HK HG L H). injection R as -> ->. reflexivity.
Qed.
Print Assumptions C17_berryman_sc.
(** The residual overwrites the caller's aspect ratios, but later evaluations are those of the original array: the
    solver sees one function, in any order of evaluation. *)
Theorem C17_residual_has_no_memory :
  forall dt k g K G X Alpha r Alpha', EM_Berryman_func dt k g K G X Alpha = Ret (r, Alpha') ->
  forall k' g', EM_Berryman_func dt k' g' K G X Alpha' = EM_Berryman_func dt k' g' K G X Alpha.
Proof.
  intros dt k g K G X Alpha r Alpha' E k' g'.
  assert (A : Alpha' = EM_PQ_clobber dt Alpha).
  { revert E. unfold EM_Berryman_func, EM_PQ_vectorize. destruct (EM_PQ_elems _ k g K G (EM_PQ_clobber dt Alpha)) as [[P Q]| |]; cbn [call]; try discriminate.
    repeat (match goal with |- call (np_bc ?f ?a ?b) _ = _ -> _ => destruct (np_bc f a b); cbn [call]; try discriminate
            | |- bind ?x _ = _ -> _ => destruct x; cbn [bind]; try discriminate end); injection 1; auto. }
  subst Alpha'. unfold EM_Berryman_func, EM_PQ_vectorize.
  replace (EM_PQ_misfit K G (EM_PQ_clobber dt Alpha)) with (EM_PQ_misfit K G Alpha)
    by (unfold EM_PQ_misfit, EM_PQ_clobber; rewrite map_length; reflexivity).
  replace (EM_PQ_clobber dt (EM_PQ_clobber dt Alpha)) with (EM_PQ_clobber dt Alpha); [reflexivity|].
  unfold EM_PQ_clobber. rewrite map_map. apply map_ext. intros a. destruct (Req_EM_T a 1) as [->|N].
  - destruct dt; [destruct (Req_EM_T 0.999 1); [lra|reflexivity]|destruct (Req_EM_T 0 1); [lra|reflexivity]].
  - destruct (Req_EM_T a 1); [contradiction|reflexivity].
Qed.
Print Assumptions C17_residual_has_no_memory.
Example C17_berryman_sc_nonvacuous : exists fsolve, let L := [Phase 0.25 37 44 0.1; Phase 0.75 37 44 1] in
  EM_Berryman_sc fsolve DFloat (map (fun p => Fin (ph_K p)) L) (map (fun p => Fin (ph_G p)) L) (map (fun p => Fin (ph_x p)) L) (map ph_al L) = Ret (Fin 37, Fin 44).
Proof.
  exists (fun _ _ => (Fin 37, Fin 44)). intros L. assert (H : Forall passive L) by (unfold passive; repeat constructor; cbn; lra).
  destruct (C17_berryman_sc (fun _ _ => (Fin 37, Fin 44)) L 37 44) as (E & _); try lra; auto.
  - discriminate.
  - unfold sumf. cbn. lra.
  - rewrite (Berryman_phases 37 44) by (lra || auto). rewrite call_ret. reteq; unfold sumf; cbn; lra.
Qed.

(** ** C19: the differential scheme for inclusions of any oblate shape *)
Theorem C19_dem_equations :
  forall m K G Ki Gi al t, 0 < K -> 0 < G -> 0 <= Ki -> 0 <= Gi -> 0 < al <= 1 -> t <> 1 -> exists P Q,
  concentration (spheroid_S (poisson K G) al) (spheroid_shear (poisson K G) al) K G Ki Gi P Q /\ exists k' g',
  EM_DEM m (Fin K) (Fin G) (Fin t) (Fin Gi, Fin Ki, al) = Ret (Fin k', Fin g') /\
  (1 - t) * k' = (Ki - K) * P /\ (1 - t) * g' = (Gi - G) * Q.
Proof.
  intros m K G Ki Gi al t HK HG HKi HGi H Ht. destruct (PQ_all m K G Ki Gi HK HG HKi HGi al H) as (_ & C & _).
  exists (sphP K G Ki Gi al), (sphQ K G Ki Gi al). split; [exact C|]. eexists _, _. split; [apply DEM_eval; auto|]. split; field; lra.
Qed.
Print Assumptions C19_dem_equations.
(** Along every exact solution the moduli move towards the inclusion's and never pass them; Berryman_DEM returns them. *)
Theorem C19_dem_solution_between_host_and_inclusion :
  forall m odeint arange Km Gm Ki Gi al phi (ts : list R) (K G K' G' : R -> R), 0 <= Ki -> 0 <= Gi -> 0 < al <= 1 ->
  arange (Fin 0) (Fin (phi + 0.01)) (Fin 0.01) = map Fin ts -> Forall (fun t => 0 <= t < 1) ts ->
  K 0 = Km -> G 0 = Gm ->
  (forall t, 0 <= t < 1 -> 0 < K t /\ 0 < G t /\ derivable_pt_lim K t (K' t) /\ derivable_pt_lim G t (G' t) /\
    EM_DEM m (Fin (K t)) (Fin (G t)) (Fin t) (Fin Gi, Fin Ki, al) = Ret (Fin (K' t), Fin (G' t))) ->
  odeint (fun k g t => EM_DEM m k g t (Fin Gi, Fin Ki, al)) (Fin Km, Fin Gm) (map Fin ts) = map (fun t => (Fin (K t), Fin (G t))) ts ->
  EM_Berryman_DEM m odeint arange (Fin Km) (Fin Gm) (Fin Ki) (Fin Gi) al (Fin phi) = Ret (map (fun t => Fin (K t)) ts, map (fun t => Fin (G t)) ts, map Fin ts) /\
  forall s t, 0 <= s -> s <= t -> t < 1 -> Rmin (K s) Ki <= K t <= Rmax (K s) Ki /\ Rmin (G s) Gi <= G t <= Rmax (G s) Gi.
Proof.
  intros m odeint arange Km Gm Ki Gi al phi ts K G K' G' HKi HGi Hal Ea Hts EK EG Hode Eo. split.
  - unfold EM_Berryman_DEM. rewrite fadd_fin, Ea, Eo, !map_map. reflexivity.
  - intros s t Hs Hst Ht.
    assert (X : forall u, 0 <= u < 1 -> (K u - Ki) * K' u <= 0 /\ (G u - Gi) * G' u <= 0).
    { intros u Hu. destruct (Hode u Hu) as (A & B & _ & _ & E). rewrite DEM_eval in E by (auto; lra). injection E as E1 E2. rewrite <- E1, <- E2.
      destruct (PQ_all m (K u) (G u) Ki Gi A B HKi HGi al Hal) as (_ & _ & P1 & Q1).
      assert (0 < 1 / (1 - u)) by (apply Rdiv_lt_0_compat; lra).
      split; [set (p := sphP (K u) (G u) Ki Gi al) in *|set (p := sphQ (K u) (G u) Ki Gi al) in *].
      - assert (0 <= (K u - Ki)^2 * (1 / (1 - u) * p)) by (apply Rmult_le_pos; [apply pow2_ge_0|apply Rlt_le, Rmult_lt_0_compat; auto]). lra.
      - assert (0 <= (G u - Gi)^2 * (1 / (1 - u) * p)) by (apply Rmult_le_pos; [apply pow2_ge_0|apply Rlt_le, Rmult_lt_0_compat; auto]). lra. }
    split; [apply relax_to with K'|apply relax_to with G']; auto; intros u Hu; (split; [apply Hode; lra|apply X; lra]).
Qed.
Print Assumptions C19_dem_solution_between_host_and_inclusion.

(** ** C21: the crack formulas are the thin limit of empty spheroids *)
(** At crack density c, spheroids of aspect ratio al occupy the fraction 4/3 pi al c, so the compliance grows at the rate
    4/3 pi al P. With [k nu], [g nu] the limits for al -> 0, dilute cracks add compliance in proportion to c, and
    O'Connell-Budiansky take the host's rate at the softened Poisson ratio nu (1 - 16 c / 9). *)
Theorem C21_cracks_are_thin_spheroids :
  exists k g : R -> R,
  (forall m K G, 0 < K -> 0 < G -> exists P Q : R -> R,
    (forall al, 0 < al <= 1 -> EM_PQ m (Fin K) (Fin G) (Fin 0) (Fin 0) al = Ret (Fin (P al), Fin (Q al))) /\
    limit1_in (fun al => 4/3 * PI * al * P al) (fun al => 0 < al < 1) (k (poisson K G)) 0 /\
    limit1_in (fun al => 4/3 * PI * al * Q al) (fun al => 0 < al < 1) (g (poisson K G)) 0) /\
  (forall m K G c, 0 < K -> 0 < G -> 0 <= c -> exists K1 G1,
    EM_Dilute_crack m (Fin K) (Fin G) (Fin c) = Ret (Fin K1, Fin G1) /\
    1 / K1 = (1 + k (poisson K G) * c) / K /\ 1 / G1 = (1 + g (poisson K G) * c) / G) /\
  (forall m K G c, 0 < K -> 0 < G -> 0 <= c <= 9/16 -> let nu := poisson K G * (1 - 16 * c / 9) in
    EM_OConnell_Budiansky m (Fin K) (Fin G) (Fin c) = Ret (Fin (K * (1 - k nu * c)), Fin (G * (1 - g nu * c)))).
Proof.
  exists ck, cg.
  assert (EP : forall K G, 0 < K -> 0 < G -> pr K G = poisson K G) by (intros K G HK HG; unfold pr, poisson; field; lra).
  split; [|split].
  - intros m K G HK HG. exists (sphP K G 0 0), (sphQ K G 0 0). split; [intros al H; apply PQ_all; auto; lra|]. apply crack_lim; auto.
  - intros m K G c HK HG Hc. eexists _, _. split; [apply Dilute_eval; auto|]. unfold dck, dcg.
    assert (F := pr_facts K G HK HG). assert (Pk := ck_pos _ F). assert (Pg := cg_pos _ F). rewrite EP in * by auto.
    assert (0 <= ck (poisson K G) * c) by (apply Rmult_le_pos; lra). assert (0 <= cg (poisson K G) * c) by (apply Rmult_le_pos; lra).
    split; field; lra.
  - intros m K G c HK HG Hc nu. rewrite OB_eval by auto. destruct (obn_facts K G HK HG c Hc) as (F1 & F2).
    unfold obk, obg, ck, cg. change (obn K G c) with (pr K G * (1 - 16 * c / 9)) in *. rewrite EP in * by auto. fold nu in F1, F2. fold nu.
    reteq; field; lra.
Qed.
Print Assumptions C21_cracks_are_thin_spheroids.

(** ** C22: cracks with fluid *)
(** A thin crack of aspect ratio al filled with a fluid of modulus al*kap keeps the share D of the dry crack's compliance. *)
Theorem C22_fluid_crack_share :
  forall m K G kap D, 0 < K -> 0 < G -> 0 <= kap -> crack_share (poisson K G) K kap D -> exists P P0 Q Q0 : R -> R,
  (forall al, 0 < al <= 1 -> EM_PQ m (Fin K) (Fin G) (Fin (al * kap)) (Fin 0) al = Ret (Fin (P al), Fin (Q al)) /\
                             EM_PQ m (Fin K) (Fin G) (Fin 0) (Fin 0) al = Ret (Fin (P0 al), Fin (Q0 al))) /\
  exists k, limit1_in (fun al => al * P0 al) (fun al => 0 < al < 1) k 0 /\ limit1_in (fun al => al * P al) (fun al => 0 < al < 1) (D * k) 0.
Proof.
  intros m K G kap D HK HG Hk HD. exists (fun al => sphP K G (al * kap) 0 al), (sphP K G 0 0), (fun al => sphQ K G (al * kap) 0 al), (sphQ K G 0 0). split.
  - intros al H. split; apply PQ_all; auto; try lra. apply Rmult_le_pos; lra.
  - assert (PP := PI_RGT_0). destruct (crack_lim K G HK HG) as (L1 & _). assert (L2 := fluid_crack_lim K G kap HK HG Hk). cbv zeta in L2.
    exists (3 / (4 * PI) * ck (poisson K G)). split.
    + eapply lim_ext; [apply limit_mul; [apply lim_cst with (c := 3 / (4 * PI))|exact L1]|]. intros a _. cbv beta. field. lra.
    + eapply lim_ext; [eapply lim_eq; [apply limit_mul; [apply lim_cst with (c := 3 / (4 * PI))|exact L2]|]|intros a _; cbv beta; field; lra].
      unfold crack_share in HD. set (u := 1 + _) in *. assert (u <> 0) by (intros E; rewrite E in HD; lra).
      replace D with (1 / u); [field; lra|]. apply (Rmult_eq_reg_r u); [|auto]. rewrite HD. field. auto.
Qed.
Print Assumptions C22_fluid_crack_share.
(** The second of the two equations is this relation with the effective moduli, except that one Poisson ratio is the
    background's instead of the effective one. *)
Theorem C22_second_equation :
  forall m K G Kf c al, 0 < K -> 0 < G -> al <> 0 -> forall nu D, -1 < nu < 1/2 ->
  let n0 := poisson K G in
  D * (1 + 3 * n0) * (2 - nu) - 2 * (1 - 2 * n0) <> 0 -> exists e1 e2,
  EM_OC_R_funcs m (Fin nu) (Fin D) (Fin c) (Fin n0) (Fin (Kf / al / K)) = Ret (Fin e1, Fin e2) /\
  (e2 = 0 <-> (1 - D) * (1 - 16 * (1 - n0^2) * c * D / (9 * (1 - 2 * nu))) = D * (4 / (3 * PI) * ((1 - n0^2) / (1 - 2 * nu)) * (Kf / al / K))).
Proof.
  intros m K G Kf c al HK HG Ha nu D Hn n0 N. assert (PP := PI_RGT_0).
  assert (EP : pr K G = n0) by (unfold n0, pr, poisson; field; lra). assert (F := pr_facts K G HK HG). rewrite EP in F.
  assert (E := OC_funcs_eval m K G Kf c al HK HG nu D Hn). rewrite EP in E. eexists _, _. split; [exact (E N)|].
  assert (0 < 1 - n0^2) by nra.
  match goal with |- ?e = 0 <-> ?a = ?b => assert (X : e * (16/9 * ((1 - n0^2) / (1 - 2 * nu))) = a - b) by (field; repeat split; lra) end.
  assert (0 < 16/9 * ((1 - n0^2) / (1 - 2 * nu))) by (apply Rmult_lt_0_compat; [lra|apply Rdiv_lt_0_compat; lra]).
  split; intros Y; [rewrite Y in X; lra|]. rewrite Y in X.
  match goal with |- ?e = 0 => assert (Z : e * (16/9 * ((1 - n0^2) / (1 - 2 * nu))) = 0) by lra; apply Rmult_integral in Z as [Z|Z]; [exact Z|lra] end.
Qed.
Print Assumptions C22_second_equation.
Theorem C22_share_at_a_root_refuted :
  forall m K G Kf c al, 0 < K -> 0 < G -> 0 < al -> 0 < Kf -> c <> 0 -> forall nu D, -1 < nu < 1/2 ->
  let n0 := poisson K G in
  D * (1 + 3 * n0) * (2 - nu) - 2 * (1 - 2 * n0) <> 0 -> nu <> - n0 ->
  EM_OC_R_funcs m (Fin nu) (Fin D) (Fin c) (Fin n0) (Fin (Kf / al / K)) = Ret (Fin 0, Fin 0) ->
  let Keff := K * (1 - 16 * (1 - nu^2) * c * D / (9 * (1 - 2 * nu))) in
  Keff <> 0 -> ~ crack_share nu Keff (Kf / al) D.
Proof.
  intros m K G Kf c al HK HG Ha Hf Hc nu D Hn n0 N Nn E Keff NK HS. assert (PP := PI_RGT_0).
  destruct (C22_second_equation m K G Kf c al HK HG ltac:(lra) nu D Hn N) as (e1 & e2 & E' & I). fold n0 in E'. rewrite E in E'. injection E' as <- <-.
  destruct I as (I & _). specialize (I eq_refl). fold n0 in I.
  assert (EP : pr K G = n0) by (unfold n0, pr, poisson; field; lra). assert (F := pr_facts K G HK HG). rewrite EP in F.
  assert (N0 : nu <> n0).
  { intros Q. assert (E2 := OC_funcs_eval m K G Kf c al HK HG nu D Hn). rewrite EP in E2. rewrite (E2 N) in E. injection E as E _. unfold oceq1 in E. rewrite EP, Q in E. apply Hc.
    replace (n0 - n0) with 0 in E by ring. unfold Rdiv in E. rewrite Rmult_0_r, !Rmult_0_l in E. lra. }
  set (b := 1 - 2 * nu) in *. assert (Hb : 0 < b) by (unfold b; lra). assert (0 < 1 - nu^2) by nra. assert (0 < 1 - n0^2) by nra.
  set (kap := Kf / al) in *. assert (0 < kap) by (apply Rdiv_lt_0_compat; lra).
  (* the published relation in the same form *)
  assert (J : (1 - D) * (1 - 16 * (1 - nu^2) * c * D / (9 * b)) = D * (4 / (3 * PI) * ((1 - nu^2) / b) * (kap / K))).
  { unfold crack_share in HS. fold b in HS. unfold Keff in *. set (z := 1 - 16 * (1 - nu^2) * c * D / (9 * b)) in *.
    assert (z <> 0) by (intros Q; apply NK; rewrite Q; ring).
    replace (1 - D) with (D * (4 / (3 * PI) * ((1 - nu ^ 2) / b) * (kap / (K * z)))) by lra. field. repeat split; lra. }
  (* compare: both say (1 - D) b 9/16 / (1 - n^2) = the same *)
  assert (I' : (1 - D) * b * / (1 - n0^2) = (1 - D) * (16 / 9 * c * D) + D * (4 / (3 * PI) * (kap / K))).
  { apply (Rmult_eq_reg_r ((1 - n0^2) / b)); [|apply Rgt_not_eq, Rdiv_lt_0_compat; lra]. 
    transitivity ((1 - D)); [field; lra|]. 
    transitivity ((1 - D) * (1 - 16 * (1 - n0^2) * c * D / (9 * b)) + (1 - D) * (16 * (1 - n0^2) * c * D / (9 * b))); [ring|]. rewrite I. field. repeat split; lra. }
  assert (J' : (1 - D) * b * / (1 - nu^2) = (1 - D) * (16 / 9 * c * D) + D * (4 / (3 * PI) * (kap / K))).
  { apply (Rmult_eq_reg_r ((1 - nu^2) / b)); [|apply Rgt_not_eq, Rdiv_lt_0_compat; lra]. 
    transitivity ((1 - D)); [field; lra|]. 
    transitivity ((1 - D) * (1 - 16 * (1 - nu^2) * c * D / (9 * b)) + (1 - D) * (16 * (1 - nu^2) * c * D / (9 * b))); [ring|]. rewrite J. field. repeat split; lra. }
  rewrite <- J' in I'.
  assert (D1 : D <> 1).
  { intros Q. rewrite Q in I. assert (0 < 4 / (3 * PI) * ((1 - n0^2) / b) * (kap / K)) by (apply Rmult_lt_0_compat; [apply Rmult_lt_0_compat|]; apply Rdiv_lt_0_compat; lra). lra. }
  apply Rmult_eq_reg_l in I'; [|apply Rmult_integral_contrapositive; lra].
  assert (X : 1 - n0^2 = 1 - nu^2) by (rewrite <- (Rinv_inv (1 - n0^2)), I', Rinv_inv; reflexivity).
  assert (Y : (nu - n0) * (nu + n0) = 0) by lra. apply Rmult_integral in Y as [Y|Y]; [apply N0|apply Nn]; lra.
Qed.
Print Assumptions C22_share_at_a_root_refuted.

Example C69_nonvacuous :
  let L := [Phase 0.8 37 44 1; Phase 0.15 2.25 0 0.1; Phase 0.05 0 0 0.01] in Forall passive L /\ sumf ph_x L = 1.
Proof.
  cbv zeta. split; [|cbn; dec; lra]. unfold passive. repeat constructor; cbn; dec; lra.
Qed.
(** A single material with its own spheroids: the constant solution meets the hypotheses of the differential scheme. *)
Example C19_nonvacuous_ode : forall m t, 0 <= t < 1 -> derivable_pt_lim (fun _ => 37) t 0 /\
  EM_DEM m (Fin 37) (Fin 44) (Fin t) (Fin 44, Fin 37, 0.1) = Ret (Fin 0, Fin 0).
Proof.
  intros m t Ht. split; [apply derivable_pt_lim_const|]. rewrite DEM_eval by (try lra; dec; lra). reteq; field; lra.
Qed.
Example C22_nonvacuous_root : forall m, exists Kf c, 0 < Kf /\ 0 < c /\ poisson 5 3 = 1/4 /\
  EM_OC_R_funcs m (Fin (1/5)) (Fin (9/10)) (Fin c) (Fin (poisson 5 3)) (Fin (Kf / (1/100) / 5)) = Ret (Fin 0, Fin 0).
Proof.
  intros m. assert (PP := PI_RGT_0). set (c := 45/16 * (1/20) / (24/25) * (9/5) / (367/200)).
  assert (Hc : 0 < c < 1/5) by (unfold c; lra).
  set (Kf := 4 * PI / 3 * ((1/10) * (9/25 - c * (9/10))) / (9/10) * (1/20)). exists Kf, c.
  assert (EP : poisson 5 3 = 1/4) by (unfold poisson; field). split; [|split; [lra|split; [exact EP|]]].
  - unfold Kf. assert (0 < PI * (9/25 - c * (9/10))) by (apply Rmult_lt_0_compat; lra). lra.
  - assert (E := OC_funcs_eval m 5 3 Kf c (1/100) ltac:(lra) ltac:(lra) (1/5) (9/10) ltac:(lra)).
    assert (EQ : pr 5 3 = 1/4) by (unfold pr; field). rewrite EP. rewrite EQ in E. rewrite E by lra. unfold oceq1. rewrite EQ.
    reteq; [unfold c; field|unfold Kf; field; lra].
Qed.

(** ** C23: the iterated scheme for empty pores *)
(** The passes: the first starts from (Km, Km), and one more pass is one more application of the step. *)
Theorem C23_flex_passes :
  forall m f Km Ki Gm Gi n,
  EM_SC_flex m f 0 Km Ki Gm Gi = Ret (Km, Km) /\
  EM_SC_flex m f (Z.of_nat (S n)) Km Ki Gm Gi =
  (call! (K, G) := EM_SC_flex m f (Z.of_nat n) Km Ki Gm Gi in EM_SC_flex_step m f Km Ki Gm Gi K G).
Proof.
  intros m f Km Ki Gm Gi n. split; [reflexivity|]. unfold EM_SC_flex. rewrite !Nat2Z.id.
  enough (X : forall n K G, EM_SC_flex_loop m (S n) f Km Ki Gm Gi K G =
    (call! (K, G) := EM_SC_flex_loop m n f Km Ki Gm Gi K G in EM_SC_flex_step m f Km Ki Gm Gi K G)) by apply X.
  clear n. induction n as [|n IH]; intros K G.
  - cbn [EM_SC_flex_loop]. rewrite call_ret. destruct (EM_SC_flex_step m f Km Ki Gm Gi K G) as [[a b]| |]; reflexivity.
  - change (EM_SC_flex_loop m (S (S n)) f Km Ki Gm Gi K G) with
      (call! (K', G') := EM_SC_flex_step m f Km Ki Gm Gi K G in EM_SC_flex_loop m (S n) f Km Ki Gm Gi K' G').
    change (EM_SC_flex_loop m (S n) f Km Ki Gm Gi K G) with
      (call! (K', G') := EM_SC_flex_step m f Km Ki Gm Gi K G in EM_SC_flex_loop m n f Km Ki Gm Gi K' G').
    destruct (EM_SC_flex_step m f Km Ki Gm Gi K G) as [[a b]| |]; [|reflexivity|reflexivity]. rewrite !call_ret. apply IH.
Qed.
Print Assumptions C23_flex_passes.
(** For a pore fraction below 2/5 that is not too large for the stiffness contrast of the matrix, every number of passes
    returns positive moduli below the matrix by at least the factors 1 - f and 1 - 5f/3. *)
Theorem C23_flex_pores_positive :
  forall m f Km Gm n, 0 < Km -> 0 < Gm -> 0 <= f < 2/5 ->
  f * (1 + 3/4 * Rmax 1 (Km / (Gm * (1 - 5/2 * f)))) < 1 -> exists K G,
  EM_SC_flex m (Fin f) (Z.of_nat (S n)) (Fin Km) (Fin 0) (Fin Gm) (Fin 0) = Ret (Fin K, Fin G) /\
  0 < K <= Km * (1 - f) /\ 0 < G <= Gm * (1 - 5/3 * f).
Proof.
  intros m f Km Gm n HK HG (H0 & H1) HP. set (Q := Rmax 1 (Km / (Gm * (1 - 5/2 * f)))) in *.
  assert (1 <= Q) by apply Rmax_l. assert (A : Km / (Gm * (1 - 5/2 * f)) <= Q) by apply Rmax_r.
  assert (D : 0 < Gm * (1 - 5/2 * f)) by (apply Rmult_lt_0_compat; lra). apply div_le_iff in A; [|exact D].
  assert (Km * 1 <= Q * Km) by (rewrite (Rmult_comm Q); apply Rmult_le_compat_l; lra).
  destruct (flex_dry_loop f Km Gm Q HK HG H0 H1 H A HP m n Km Km) as (K & G & E & B & C & _); try lra.
  exists K, G. split; [|split; assumption]. unfold EM_SC_flex. rewrite Nat2Z.id. exact E.
Qed.
Print Assumptions C23_flex_pores_positive.
(** Because the shear state starts from Km, the first pass has fixed pore sensitivities 7/4 and 35/17 whatever the matrix;
    beyond f = 17/35 the shear modulus it returns is negative, beyond 4/7 the bulk modulus too. *)
Theorem C23_flex_positive_refuted :
  forall m f Km Gm, 0 < Km -> 0 < Gm -> exists K G,
  EM_SC_flex m (Fin f) 1 (Fin Km) (Fin 0) (Fin Gm) (Fin 0) = Ret (Fin K, Fin G) /\
  K = Km * (1 - 7/4 * f) /\ G = Gm * (1 - 35/17 * f) /\ (17/35 < f -> G < 0) /\ (4/7 < f -> K < 0).
Proof.
  intros m f Km Gm HK HG. exists (Km * (1 - 7/4 * f)), (Gm * (1 - 35/17 * f)). split.
  - unfold EM_SC_flex. change (Z.to_nat 1) with 1%nat. cbn [EM_SC_flex_loop]. rewrite flex_dry by assumption. rewrite call_ret.
    reteq; field; lra.
  - split; [reflexivity|]. split; [reflexivity|]. split; intros H; nra.
Qed.
Print Assumptions C23_flex_positive_refuted.
Example C23_flex_pores_positive_nonvacuous : 0.1 * (1 + 3/4 * Rmax 1 (36 / (45 * (1 - 5/2 * 0.1)))) < 1.
Proof. rewrite Rmax_right; lra. Qed.
