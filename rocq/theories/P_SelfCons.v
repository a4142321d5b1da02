(** * P_SelfCons: C78, the self-consistent equations of Berryman_func always have a solution *)
From Coq Require Import Reals Lra Lia List String.
From Verif Require Import Fl RealLemmas Spec Spec7 M_EM L_EM8 L_Shape L_Miranda L_SelfCons L_SelfCons2 P_EM2 P_Shape.
Import ListNotations.
Open Scope R_scope.
Local Notation Forall := List.Forall.

(** Any number of phases with positive moduli and any oblate aspect ratios, spheres included: the two residuals vanish
    together somewhere, and that somewhere lies between the phases. *)
Theorem C78_root_exists :
  forall L : list phase, Forall (fun p => passive p /\ 0 < ph_K p /\ 0 < ph_G p) L -> sumf ph_x L = 1 -> exists Ks Gs, 0 < Ks /\ 0 < Gs /\
  EM_Berryman_func DFloat (Fin Ks) (Fin Gs) (map (fun p => Fin (ph_K p)) L) (map (fun p => Fin (ph_G p)) L) (map (fun p => Fin (ph_x p)) L) (map ph_al L)
    = Ret ((Fin 0, Fin 0), map (fun p => if Req_EM_T (ph_al p) 1 then 0.999 else ph_al p) L) /\
  between_some (map ph_K L) Ks /\ between_some (map ph_G L) Gs.
Proof.
  intros L H Hs. destruct (sc_root L H) as (Ks & Gs & HK & HG & E1 & E2). exists Ks, Gs. split; [exact HK|]. split; [exact HG|].
  assert (HP : Forall passive L) by (revert H; apply List.Forall_impl; intros p (A & _); exact A).
  assert (E : EM_Berryman_func DFloat (Fin Ks) (Fin Gs) (map (fun p => Fin (ph_K p)) L) (map (fun p => Fin (ph_G p)) L) (map (fun p => Fin (ph_x p)) L) (map ph_al L)
    = Ret ((Fin 0, Fin 0), map (fun p => if Req_EM_T (ph_al p) 1 then 0.999 else ph_al p) L)) by (rewrite (Berryman_phases Ks Gs HK HG L HP), E1, E2; reflexivity).
  split; [exact E|]. exact (C17_oblate_root_between_phases Ks Gs L _ HK HG HP Hs E).
Qed.
Print Assumptions C78_root_exists.
(** So a solver that finds a positive root of this system whenever there is one makes Berryman_sc return a physical
    answer: no choice of phases, fractions or aspect ratios is out of reach. *)
Theorem C78_berryman_sc_returns :
  forall fsolve (L : list phase), Forall (fun p => passive p /\ 0 < ph_K p /\ 0 < ph_G p) L -> sumf ph_x L = 1 ->
  let residual k g := call! (r, _) := EM_Berryman_func DFloat k g (map (fun p => Fin (ph_K p)) L) (map (fun p => Fin (ph_G p)) L) (map (fun p => Fin (ph_x p)) L) (map ph_al L) in Ret r in
  let root k g := 0 < k /\ 0 < g /\ residual (Fin k) (Fin g) = Ret (Fin 0, Fin 0) in
  (forall start, (exists k g, root k g) -> exists k g, root k g /\ fsolve residual start = (Fin k, Fin g)) ->
  exists Ks Gs, root Ks Gs /\
  EM_Berryman_sc fsolve DFloat (map (fun p => Fin (ph_K p)) L) (map (fun p => Fin (ph_G p)) L) (map (fun p => Fin (ph_x p)) L) (map ph_al L) = Ret (Fin Ks, Fin Gs) /\
  between_some (map ph_K L) Ks /\ between_some (map ph_G L) Gs.
Proof.
  intros fsolve L H Hs residual root F. assert (HP : Forall passive L) by (revert H; apply List.Forall_impl; intros p (A & _); exact A).
  assert (N : L <> []) by (intros ->; unfold sumf in Hs; cbn in Hs; lra).
  destruct (F (Fin (sumf ph_K L / INR (List.length L)), Fin (sumf ph_G L / INR (List.length L)))) as (Ks & Gs & R & Ef).
  { destruct (C78_root_exists L H Hs) as (k & g & Hk & Hg & E & _). exists k, g. split; [exact Hk|]. split; [exact Hg|]. unfold residual. rewrite E. reflexivity. }
  exists Ks, Gs. split; [exact R|]. destruct R as (HK & HG & R). exact (C17_berryman_sc fsolve L Ks Gs N HP Hs HK HG Ef R).
Qed.
Print Assumptions C78_berryman_sc_returns.
(** Two phases ordered alike: the root that exists lies within the Hashin-Shtrikman bounds. *)
Theorem C78_two_phases_root_within_hs :
  forall m x Km Gm Ki Gi a1 a2, 0 < Km -> 0 < Gm -> 0 < Ki -> 0 < Gi -> 0 < (Km - Ki) * (Gm - Gi) -> 0 <= x <= 1 -> 0 < a1 <= 1 -> 0 < a2 <= 1 ->
  exists Ks Gs al' Ka Ga Kb Gb, 0 < Ks /\ 0 < Gs /\
    EM_Berryman_func DFloat (Fin Ks) (Fin Gs) [Fin Km; Fin Ki] [Fin Gm; Fin Gi] [Fin x; Fin (1 - x)] [a1; a2] = Ret ((Fin 0, Fin 0), al') /\
    EM_HS m (Fin x) (Fin Km) (Fin Ki) (Fin Gm) (Fin Gi) "upper" = Ret (Fin Ka, Fin Ga) /\
    EM_HS m (Fin x) (Fin Km) (Fin Ki) (Fin Gm) (Fin Gi) "lower" = Ret (Fin Kb, Fin Gb) /\
    Rmin Ka Kb <= Ks <= Rmax Ka Kb /\ Rmin Ga Gb <= Gs <= Rmax Ga Gb.
Proof.
  intros m x Km Gm Ki Gi a1 a2 HKm HGm HKi HGi Ho Hx H1 H2.
  destruct (C78_root_exists [Phase x Km Gm a1; Phase (1 - x) Ki Gi a2]) as (Ks & Gs & HK & HG & E & _).
  { repeat (apply List.Forall_cons; [unfold passive; cbn; lra|]). apply List.Forall_nil. } { unfold sumf; cbn; lra. }
  cbn [map ph_x ph_K ph_G ph_al] in E. destruct (C76_two_phases_within_hs m x Km Gm Ki Gi a1 a2 Ks Gs _ HK HG HKm HGm HKi HGi Ho Hx H1 H2 E) as (Ka & Ga & Kb & Gb & A & B & C & D).
  exists Ks, Gs. eexists. exists Ka, Ga, Kb, Gb. repeat (split; [eassumption|]). exact D.
Qed.
Print Assumptions C78_two_phases_root_within_hs.
(** Three different minerals, one of them in thin flakes. *)
Example C78_nonvacuous : let L := [Phase 0.5 37 44 1; Phase 0.3 77 32 0.5; Phase 0.2 21 7 0.01] in
  Forall (fun p => passive p /\ 0 < ph_K p /\ 0 < ph_G p) L /\ sumf ph_x L = 1.
Proof. cbv zeta. split; [repeat (apply List.Forall_cons; [unfold passive; cbn; lra|]); apply List.Forall_nil|unfold sumf; cbn; lra]. Qed.

(** Pores without rigidity, empty or filled with a fluid no stiffer than the grains, are another matter. A small enough
    amount of them, of any shape, still leaves a root with at least half of the grains' moduli. *)
Theorem C78_few_pores_root :
  forall Km Gm a2, 0 < Km -> 0 < Gm -> 0 < a2 <= 1 -> exists phi0, 0 < phi0 /\
  forall phi Ki a1, 0 <= phi <= phi0 -> 0 <= Ki <= Km -> 0 < a1 <= 1 -> exists Ks Gs al', Km / 2 <= Ks <= Km /\ Gm / 2 <= Gs <= Gm /\
  EM_Berryman_func DFloat (Fin Ks) (Fin Gs) [Fin Km; Fin Ki] [Fin Gm; Fin 0] [Fin (1 - phi); Fin phi] [a1; a2] = Ret ((Fin 0, Fin 0), al').
Proof.
  intros Km Gm a2 HK HG H2. assert (A2 := al_used_in a2 H2). set (C := poreC Km Gm (al_used a2)).
  assert (PC : 0 < C) by (apply poreC_pos; auto).
  exists (/ (1 + 2 * C)). split; [apply Rinv_0_lt_compat; lra|]. intros phi Ki a1 Hp HKi H1. assert (A1 := al_used_in a1 H1).
  assert (Hc : phi * (1 + 2 * C) <= 1). { apply Rle_trans with (/ (1 + 2 * C) * (1 + 2 * C)); [apply Rmult_le_compat_r; lra|]. rewrite Rinv_l; lra. }
  assert (Hp1 : phi <= 1). { assert (0 <= phi * C) by (apply Rmult_le_pos; lra). lra. }
  destruct (pores_root phi Km Gm Ki (al_used a1) (al_used a2) A1 A2 HK HG HKi ltac:(lra) Hc) as (Ks & Gs & IK & IG & E1 & E2).
  exists Ks, Gs. eexists. split; [exact IK|]. split; [exact IG|].
  assert (HP : Forall passive [Phase (1 - phi) Km Gm a1; Phase phi Ki 0 a2]) by (repeat (apply List.Forall_cons; [unfold passive; cbn; lra|]); apply List.Forall_nil).
  assert (E := Berryman_phases Ks Gs ltac:(lra) ltac:(lra) _ HP). cbn [map ph_x ph_K ph_G ph_al] in E. rewrite E. unfold sumf. cbn [map sumR].
  rewrite ?(proj1 (ph_sph Ks Gs (Phase (1 - phi) Km Gm a1))), ?(proj2 (ph_sph Ks Gs (Phase (1 - phi) Km Gm a1))), ?(proj1 (ph_sph Ks Gs (Phase phi Ki 0 a2))), ?(proj2 (ph_sph Ks Gs (Phase phi Ki 0 a2))). cbn [ph_x ph_K ph_G ph_al]. reteq; lra.
Qed.
Print Assumptions C78_few_pores_root.
(** But beyond an amount that depends only on the grains' aspect ratio there is none, whatever the moduli and whatever the
    shape of the pores: what a solver then returns is not a solution. *)
Theorem C78_many_pores_no_root :
  forall phi Km Gm Ki a1 a2, 0 < Km -> 0 < Gm -> 0 <= Ki <= Km -> 0 <= phi <= 1 -> 0 < a1 <= 1 -> 0 < a2 <= 1 ->
  let a := if Req_EM_T a1 1 then 0.999 else a1 in (1 - phi) * (1 / a^2 + 16 / (5 * a)) < 5/3 * phi ->
  forall Ks Gs al', 0 < Ks -> 0 < Gs -> EM_Berryman_func DFloat (Fin Ks) (Fin Gs) [Fin Km; Fin Ki] [Fin Gm; Fin 0] [Fin (1 - phi); Fin phi] [a1; a2] <> Ret ((Fin 0, Fin 0), al').
Proof.
  intros phi Km Gm Ki a1 a2 HK HG HKi Hp H1 H2 a Hc Ks Gs al' Ks0 Gs0 E. fold (al_used a1) in a. assert (A1 := al_used_in a1 H1). assert (A2 := al_used_in a2 H2). fold a in A1.
  assert (HP : Forall passive [Phase (1 - phi) Km Gm a1; Phase phi Ki 0 a2]) by (repeat (apply List.Forall_cons; [unfold passive; cbn; lra|]); apply List.Forall_nil).
  destruct (C17_oblate_root_between_phases Ks Gs _ al' Ks0 Gs0 HP ltac:(unfold sumf; cbn; lra) E) as ((B1 & B2) & (_ & B3)). cbn [map ph_K ph_G] in B1, B2, B3.
  assert (IK : Ki <= Ks <= Km) by (apply between2; auto; lra). assert (IG : Gs <= Gm) by (apply below2 with (1 := B3); lra).
  assert (E' := Berryman_phases Ks Gs Ks0 Gs0 _ HP). cbn [map ph_x ph_K ph_G ph_al] in E'. rewrite E' in E. injection E as _ E2 _.
  unfold sumf in E2. cbn [map sumR] in E2. rewrite (proj2 (ph_sph Ks Gs (Phase (1 - phi) Km Gm a1))), (proj2 (ph_sph Ks Gs (Phase phi Ki 0 a2))) in E2. cbn [ph_x ph_K ph_G ph_al] in E2.
  assert (X := pores_bound phi Km Gm Ki a (al_used a2) Ks Gs A1 ltac:(lra) Hp ltac:(lra) ltac:(lra) ltac:(lra)). fold a in E2. specialize (X ltac:(lra)). lra.
Qed.
Print Assumptions C78_many_pores_no_root.
(** Equant grains and three quarters of pores. *)
Example C78_many_pores_nonvacuous : let a := if Req_EM_T 1 1 then 0.999 else 1 in (1 - 3/4) * (1 / a^2 + 16 / (5 * a)) < 5/3 * (3/4).
Proof. cbv zeta. destruct (Req_EM_T 1 1); [|lra]. replace 0.999 with (999/1000) by lra. lra. Qed.
