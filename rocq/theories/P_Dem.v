(** * C77: the differential effective medium scheme is well posed, and what its solution is. *)
From Coquelicot Require Import Coquelicot.
From Verif Require Import Fl M_Utils M_EM Spec Spec14 RealLemmas L_EM8 L_Shape L_Dem L_Dem2 L_Dem3.
From Coq Require Import List Lia ZArith.
Import ListNotations.
Open Scope R_scope.

Lemma traj_solution m Km Gm Ki Gi al K G K' G' : K 0 = Km -> G 0 = Gm -> dem_traj m Ki Gi al K G K' G' ->
  ode_solution (fun k g t => EM_DEM m k g t (Fin Gi, Fin Ki, al)) Km Gm 1 K G.
Proof. intros A B H. split; [exact A|]. split; [exact B|]. intros t Ht. destruct (H t Ht) as (_ & _ & D1 & D2 & E). exists (K' t), (G' t). auto. Qed.
Lemma solution_to m Km Gm Ki Gi al T K G : ode_solution (fun k g t => EM_DEM m k g t (Fin Gi, Fin Ki, al)) Km Gm T K G ->
  forall t, 0 <= t < T -> derivable_pt_lim K t (Derive K t) /\ derivable_pt_lim G t (Derive G t) /\ EM_DEM m (Fin (K t)) (Fin (G t)) (Fin t) (Fin Gi, Fin Ki, al) = Ret (Fin (Derive K t), Fin (Derive G t)).
Proof.
  intros (_ & _ & H) t Ht. destruct (H t Ht) as (dx & dy & D1 & D2 & E).
  rewrite (is_derive_unique K t dx) by (apply is_derive_Reals; exact D1). rewrite (is_derive_unique G t dy) by (apply is_derive_Reals; exact D2). auto.
Qed.
Lemma solution_follows m Km Gm Ki Gi al T K G : 0 < Km -> 0 < Gm -> 0 <= Ki -> 0 <= Gi -> 0 < al <= 1 -> 0 < T <= 1 ->
  ode_solution (fun k g t => EM_DEM m k g t (Fin Gi, Fin Ki, al)) Km Gm T K G ->
  forall K1 G1 K1' G1', K1 0 = Km -> G1 0 = Gm -> dem_traj m Ki Gi al K1 G1 K1' G1' -> forall t, 0 <= t < T -> K t = K1 t /\ G t = G1 t.
Proof.
  intros HK HG HKi HGi Ha HT Ho K1 G1 K1' G1' E1 E2 H1 t Ht. assert (S := solution_to _ _ _ _ _ _ _ _ _ Ho). destruct Ho as (A & B & _).
  apply (dem_follow m Ki Gi al T K1 G1 K1' G1' K G (Derive K) (Derive G)); auto; congruence.
Qed.
Lemma solution_traj m Km Gm Ki Gi al K G : 0 < Km -> 0 < Gm -> 0 <= Ki -> 0 <= Gi -> 0 < al <= 1 ->
  ode_solution (fun k g t => EM_DEM m k g t (Fin Gi, Fin Ki, al)) Km Gm 1 K G -> dem_traj m Ki Gi al K G (Derive K) (Derive G).
Proof.
  intros HK HG HKi HGi Ha Ho t Ht. destruct (dem_exists m Km Gm Ki Gi al HK HG HKi HGi Ha) as (K1 & G1 & K1' & G1' & E1 & E2 & H1).
  destruct (solution_follows m Km Gm Ki Gi al 1 K G HK HG HKi HGi Ha ltac:(lra) Ho K1 G1 K1' G1' E1 E2 H1 t Ht) as (-> & ->).
  destruct (H1 t Ht) as (P1 & P2 & _). split; [exact P1|]. split; [exact P2|].
  destruct (solution_follows m Km Gm Ki Gi al 1 K G HK HG HKi HGi Ha ltac:(lra) Ho K1 G1 K1' G1' E1 E2 H1 t Ht) as (<- & <-). exact (solution_to _ _ _ _ _ _ _ _ _ Ho t Ht).
Qed.

(** For every host, every passive inclusion (solid, fluid or empty) and every oblate shape the equations that Berryman_DEM
    integrates have a solution at all volume fractions below 1, and its moduli are positive. *)
Theorem C77_solution_exists :
  forall m Km Gm Ki Gi al, 0 < Km -> 0 < Gm -> 0 <= Ki -> 0 <= Gi -> 0 < al <= 1 -> exists K G,
  ode_solution (fun k g t => EM_DEM m k g t (Fin Gi, Fin Ki, al)) Km Gm 1 K G /\ forall t, 0 <= t < 1 -> 0 < K t /\ 0 < G t.
Proof.
  intros m Km Gm Ki Gi al HK HG HKi HGi Ha. destruct (dem_exists m Km Gm Ki Gi al HK HG HKi HGi Ha) as (K & G & K' & G' & E1 & E2 & H).
  exists K, G. split; [apply (traj_solution m Km Gm Ki Gi al K G K' G'); auto|]. intros t Ht. destruct (H t Ht) as (P1 & P2 & _). auto.
Qed.
Print Assumptions C77_solution_exists.

(** It is the only one: solutions on any interval [0, T) agree there, even if positivity is not asked for. *)
Theorem C77_solution_unique :
  forall m Km Gm Ki Gi al T K1 G1 K2 G2, 0 < Km -> 0 < Gm -> 0 <= Ki -> 0 <= Gi -> 0 < al <= 1 -> 0 < T <= 1 ->
  ode_solution (fun k g t => EM_DEM m k g t (Fin Gi, Fin Ki, al)) Km Gm T K1 G1 ->
  ode_solution (fun k g t => EM_DEM m k g t (Fin Gi, Fin Ki, al)) Km Gm T K2 G2 ->
  forall t, 0 <= t < T -> K1 t = K2 t /\ G1 t = G2 t.
Proof.
  intros m Km Gm Ki Gi al T K1 G1 K2 G2 HK HG HKi HGi Ha HT H1 H2 t Ht. destruct (dem_exists m Km Gm Ki Gi al HK HG HKi HGi Ha) as (K & G & K' & G' & E1 & E2 & H).
  destruct (solution_follows m Km Gm Ki Gi al T K1 G1 HK HG HKi HGi Ha HT H1 K G K' G' E1 E2 H t Ht) as (-> & ->).
  destruct (solution_follows m Km Gm Ki Gi al T K2 G2 HK HG HKi HGi Ha HT H2 K G K' G' E1 E2 H t Ht) as (-> & ->). auto.
Qed.
Print Assumptions C77_solution_unique.

(** Hence what Berryman_DEM returns is determined by its arguments, for every solver that returns values of a solution: the
    moduli at 0, 0.01, 0.02, ... up to the first multiple of 0.01 that is not below phi. *)
Theorem C77_Berryman_DEM_determined :
  forall m odeint arange Km Gm Ki Gi al phi, 0 < Km -> 0 < Gm -> 0 <= Ki -> 0 <= Gi -> 0 < al <= 1 -> 0 <= phi <= 0.99 -> arange_spec arange ->
  (forall ts, Forall (fun t => 0 <= t < 1) ts -> solved_by odeint (fun k g t => EM_DEM m k g t (Fin Gi, Fin Ki, al)) Km Gm 1 ts) ->
  forall K G, ode_solution (fun k g t => EM_DEM m k g t (Fin Gi, Fin Ki, al)) Km Gm 1 K G ->
  exists n, phi <= INR n / 100 < phi + 0.01 /\
  let grid := map (fun k => INR k / 100) (seq 0 (S n)) in
  EM_Berryman_DEM m odeint arange (Fin Km) (Fin Gm) (Fin Ki) (Fin Gi) al (Fin phi) = Ret (map (fun t => Fin (K t)) grid, map (fun t => Fin (G t)) grid, map Fin grid).
Proof.
  intros m odeint arange Km Gm Ki Gi al phi HK HG HKi HGi Ha Hp Har Hod K G Ho.
  destruct (Har 0 (phi + 0.01) 0.01 ltac:(lra)) as (n & Ea & Hn & Hlt).
  destruct n as [|n]; [cbn in Hn; lra|]. exists n.
  assert (L := Hlt n (Nat.lt_succ_diag_r n)). rewrite S_INR in Hn. split; [lra|]. intros grid.
  assert (Eg : map (fun k => 0 + INR k * 0.01) (seq 0 (S n)) = grid) by (apply map_ext; intros k; lra).
  rewrite Eg in Ea.
  assert (Fg : Forall (fun t => 0 <= t < 1) grid).
  { apply List.Forall_forall. intros t It. unfold grid in It. apply in_map_iff in It. destruct It as (k & <- & Ik). apply in_seq in Ik.
    assert (INR k <= INR n) by (apply le_INR; lia). assert (0 <= INR k) by apply pos_INR.
    assert (NI : INR n < 100) by lra. lra. }
  destruct (Hod grid Fg) as (x & y & Hs & Eo).
  unfold EM_Berryman_DEM. rewrite fadd_fin, Ea, Eo, !map_map.
  assert (EQ : forall t, In t grid -> x t = K t /\ y t = G t).
  { intros t It. apply (C77_solution_unique m Km Gm Ki Gi al 1 x y K G HK HG HKi HGi Ha ltac:(lra) Hs Ho). exact (proj1 (List.Forall_forall _ _) Fg t It). }
  f_equal. f_equal. f_equal; apply map_ext_in; intros t It; cbn [fst snd]; destruct (EQ t It) as (QA & QB); rewrite ?QA, ?QB; reflexivity.
Qed.
Print Assumptions C77_Berryman_DEM_determined.

(** The bound on phi is the exact one: above 0.99 the grid runs on to volume fraction 1, where the equations give no
    derivatives (they divide by 1 - t). *)
Theorem C77_grid_reaches_one :
  forall m odeint arange Km Gm Ki Gi al phi, 0.99 < phi <= 1 -> arange_spec arange ->
  (exists ks gs ts, EM_Berryman_DEM m odeint arange Km Gm Ki Gi al (Fin phi) = Ret (ks, gs, ts) /\ List.In (Fin 1) ts) /\
  forall K G Ki Gi, 0 < K -> 0 < G -> 0 <= Ki -> 0 <= Gi -> 0 < al <= 1 ->
  forall dK dG, EM_DEM m (Fin K) (Fin G) (Fin 1) (Fin Gi, Fin Ki, al) <> Ret (Fin dK, Fin dG).
Proof.
  intros m odeint arange Km Gm Ki Gi al phi Hp Har. split.
  - destruct (Har 0 (phi + 0.01) 0.01 ltac:(lra)) as (n & Ea & Hn & Hlt). unfold EM_Berryman_DEM. rewrite fadd_fin, Ea. do 3 eexists. split; [reflexivity|].
    assert (N : (100 < n)%nat). { apply INR_lt. replace (INR 100) with 100 by (cbn; lra). lra. }
    apply in_map_iff. exists 1. split; [reflexivity|]. apply in_map_iff. exists 100%nat. split; [cbn; lra|]. apply in_seq. lia.
  - intros K G Ki0 Gi0 HK HG HKi HGi Ha dK dG. unfold EM_DEM. destruct (PQ_all m K G Ki0 Gi0 HK HG HKi HGi al Ha) as (-> & _). rewrite call_ret.
    rewrite fsub_fin. replace (1 - 1) with 0 by ring. unfold fdiv. cbn.
    destruct (Req_EM_T 0 0) as [_|N]; [|lra]. destruct m; cbn; [discriminate|].
    destruct (Req_EM_T 1 0); [lra|]. cbn. repeat (destruct Req_EM_T; cbn); discriminate.
Qed.
Print Assumptions C77_grid_reaches_one.

(** Inclusions can be added in two batches: mixing a further volume fraction u into the medium obtained at t1 gives the
    medium at t1 + (1 - t1) u. *)
Theorem C77_two_batches :
  forall m Km Gm Ki Gi al t1 K G Ka Ga, 0 < Km -> 0 < Gm -> 0 <= Ki -> 0 <= Gi -> 0 < al <= 1 -> 0 <= t1 < 1 ->
  ode_solution (fun k g t => EM_DEM m k g t (Fin Gi, Fin Ki, al)) Km Gm 1 K G ->
  ode_solution (fun k g t => EM_DEM m k g t (Fin Gi, Fin Ki, al)) (K t1) (G t1) 1 Ka Ga ->
  forall u, 0 <= u < 1 -> Ka u = K (t1 + (1 - t1) * u) /\ Ga u = G (t1 + (1 - t1) * u).
Proof.
  intros m Km Gm Ki Gi al t1 K G Ka Ga HK HG HKi HGi Ha Ht Ho Ho' u Hu. assert (H := solution_traj m Km Gm Ki Gi al K G HK HG HKi HGi Ha Ho).
  destruct (H t1 Ht) as (P1 & P2 & _). assert (R := dem_restart m Ki Gi al K G _ _ HKi HGi Ha H t1 Ht).
  refine (solution_follows m (K t1) (G t1) Ki Gi al 1 Ka Ga P1 P2 HKi HGi Ha ltac:(lra) Ho' _ _ _ _ _ _ R u Hu); cbv beta; f_equal; ring.
Qed.
Print Assumptions C77_two_batches.

(** The result does not depend on the unit of the moduli. *)
Theorem C77_unit_free :
  forall m Km Gm Ki Gi al c K G Kc Gc, 0 < Km -> 0 < Gm -> 0 <= Ki -> 0 <= Gi -> 0 < al <= 1 -> 0 < c ->
  ode_solution (fun k g t => EM_DEM m k g t (Fin Gi, Fin Ki, al)) Km Gm 1 K G ->
  ode_solution (fun k g t => EM_DEM m k g t (Fin (c * Gi), Fin (c * Ki), al)) (c * Km) (c * Gm) 1 Kc Gc ->
  forall t, 0 <= t < 1 -> Kc t = c * K t /\ Gc t = c * G t.
Proof.
  intros m Km Gm Ki Gi al c K G Kc Gc HK HG HKi HGi Ha Hc Ho Ho' t Ht. assert (H := solution_traj m Km Gm Ki Gi al K G HK HG HKi HGi Ha Ho).
  assert (S := dem_scale m Ki Gi al K G _ _ HKi HGi Ha H c Hc). destruct Ho as (E1 & E2 & _).
  assert (0 < c * Km) by nra. assert (0 < c * Gm) by nra. assert (0 <= c * Ki) by nra. assert (0 <= c * Gi) by nra.
  refine (solution_follows m (c * Km) (c * Gm) (c * Ki) (c * Gi) al 1 Kc Gc ltac:(auto) ltac:(auto) ltac:(auto) ltac:(auto) Ha ltac:(lra) Ho' _ _ _ _ _ _ S t Ht); cbv beta; congruence.
Qed.
Print Assumptions C77_unit_free.

(** As the host is replaced altogether the moduli tend to the inclusion's; the distance falls at least like a power of the
    host fraction that is left. *)
Theorem C77_full_replacement :
  forall m Km Gm Ki Gi al K G, 0 < Km -> 0 < Gm -> 0 <= Ki -> 0 <= Gi -> 0 < al <= 1 ->
  ode_solution (fun k g t => EM_DEM m k g t (Fin Gi, Fin Ki, al)) Km Gm 1 K G ->
  (exists c, 0 < c /\ forall t, 0 <= t < 1 -> Rabs (K t - Ki) <= Rabs (Km - Ki) * Rpower (1 - t) c /\ Rabs (G t - Gi) <= Rabs (Gm - Gi) * Rpower (1 - t) c) /\
  limit1_in K (fun t => 0 <= t < 1) Ki 1 /\ limit1_in G (fun t => 0 <= t < 1) Gi 1.
Proof.
  intros m Km Gm Ki Gi al K G HK HG HKi HGi Ha Ho. assert (H := solution_traj m Km Gm Ki Gi al K G HK HG HKi HGi Ha Ho). destruct Ho as (E1 & E2 & _).
  split; [rewrite <- E1, <- E2; apply (dem_full m Ki Gi al K G _ _ HKi HGi Ha H)|].
  assert (L := dem_limit m Ki Gi al K G _ _ HKi HGi Ha H).
  split; intros eps He; destruct (L eps He) as (d & Hd & D); exists d; (split; [exact Hd|]); intros t (Ht & Hx); unfold dist in *; cbn in *; unfold R_dist in *; apply D; auto; unfold Rabs in Hx; destruct Rcase_abs in Hx; lra.
Qed.
Print Assumptions C77_full_replacement.

(** Empty spheres: the moduli at porosity t are the one positive solution of two algebraic equations. *)
Theorem C77_dry_spheres_closed_form :
  forall m Km Gm K G, 0 < Km -> 0 < Gm -> ode_solution (fun k g t => EM_DEM m k g t (Fin 0, Fin 0, 1)) Km Gm 1 K G ->
  forall t, 0 <= t < 1 -> forall k g, 0 < k -> 0 < g ->
  (K t = k /\ G t = g <->
   (4 * g - 3 * k)^5 * (Km^5 * Gm^3) = (4 * Gm - 3 * Km)^5 * (k^5 * g^3) /\ k * g^3 * (3 * Km + 4 * Gm) = Km * Gm^3 * (3 * k + 4 * g) * (1 - t)^6).
Proof.
  intros m Km Gm K G HK HG Ho t Ht k g Hk Hg. assert (H := solution_traj m Km Gm 0 0 1 K G HK HG ltac:(lra) ltac:(lra) ltac:(lra) Ho). destruct Ho as (E1 & E2 & _).
  assert (I1 := dry_inv1 m K G _ _ H t Ht). assert (I2 := dry_inv2 m K G _ _ H t Ht). rewrite E1, E2 in I1, I2. split.
  - intros (<- & <-). auto.
  - intros (J1 & J2). destruct (H t Ht) as (P1 & P2 & _). apply (dry_pinned Km Gm (K t) (G t) k g ((1 - t)^6)); auto. apply pow_lt. lra.
Qed.
Print Assumptions C77_dry_spheres_closed_form.

(** The values that the project's test suite records for Berryman_DEM(37, 44, 0, 0, 1, 0.1) are not this solution: at
    porosity 0.01 the recorded bulk modulus is 36.30333795, with a relative tolerance of 1e-6. *)
Theorem C77_recorded_test_value_refuted :
  forall m K G, ode_solution (fun k g t => EM_DEM m k g t (Fin 0, Fin 0, 1)) 37 44 1 K G -> 36.38 <= K 0.01.
Proof.
  intros m K G Ho. assert (H := solution_traj m 37 44 0 0 1 K G ltac:(lra) ltac:(lra) ltac:(lra) ltac:(lra) ltac:(lra) Ho). destruct Ho as (E1 & E2 & _).
  replace 0.01 with (1/100) by lra. apply (recorded m K G _ _ E1 E2 H).
Qed.
Print Assumptions C77_recorded_test_value_refuted.

(** A host and a fluid, cracks, and a solver and a grid that meet the hypotheses. *)
Example C77_nonvacuous : exists odeint arange, arange_spec arange /\
  forall ts, Forall (fun t => 0 <= t < 1) ts -> solved_by odeint (fun k g t => EM_DEM NumPy k g t (Fin 0, Fin 2.2, 0.1)) 37 44 1 ts.
Proof.
  destruct (C77_solution_exists NumPy 37 44 2.2 0 0.1) as (K & G & Ho & _); try lra.
  set (val := fun v : fl => match v with Fin r => r | _ => 0 end).
  exists (fun _ _ ts => map (fun v => (Fin (K (val v)), Fin (G (val v)))) ts).
  exists (fun a b s => map Fin (map (fun k => val a + INR k * val s) (seq 0 (Z.to_nat (up ((val b - val a) / val s) - (if Req_EM_T (IZR (up ((val b - val a) / val s)) - 1) ((val b - val a) / val s) then 1 else 0)))))).
  split.
  - intros a b s Hs. cbn [val]. set (q := (b - a) / s). destruct (archimed q) as (U1 & U2). assert (Eq : b = a + q * s) by (unfold q; field; lra).
    set (z := (up q - (if Req_EM_T (IZR (up q) - 1) q then 1 else 0))%Z).
    assert (Z0 : q <= IZR z /\ IZR z < q + 1). { unfold z. destruct Req_EM_T as [E|E]; rewrite minus_IZR; [lra|]. cbn. split; [lra|]. destruct U2 as [|U2]; [lra|]. exfalso. apply E. lra. }
    exists (Z.to_nat z). split; [reflexivity|]. split.
    + assert (IZR z <= INR (Z.to_nat z)). { rewrite INR_IZR_INZ. apply IZR_le. lia. } rewrite Eq. apply Rplus_le_compat_l, Rmult_le_compat_r; lra.
    + intros k Hk. rewrite Eq. apply Rplus_lt_compat_l, Rmult_lt_compat_r; [exact Hs|]. assert (IZR (Z.of_nat k) <= IZR z - 1) by (rewrite <- minus_IZR; apply IZR_le; lia). rewrite <- INR_IZR_INZ in *. lra.
  - intros ts _. exists K, G. split; [exact Ho|]. rewrite map_map. reflexivity.
Qed.
