(** * L_Layers: the Backus average as a minimum of energy; bounds; signs of Thomsen's parameters (C82). *)
From Verif Require Import Fl RealLemmas M_Utils M_EM M_Anis Spec Spec19 L_Lists L_Utils L_EM1 L_Anis.
Open Scope R_scope.

Definition favg (h : layer * (nat -> R) -> R) (F : field) : R :=
  sumf (fun p => lv (fst p) * h p) F / sumf lv (map fst F).
Lemma favg_plus f g F : favg (fun p => f p + g p) F = favg f F + favg g F.
Proof.
  unfold favg. rewrite <- Rdiv_plus_distr, <- sumf_plus. f_equal. apply sumf_ext_all. intros; ring.
Qed.
Lemma favg_scal c f F : favg (fun p => c * f p) F = c * favg f F.
Proof.
  unfold favg, Rdiv. rewrite <- Rmult_assoc, <- sumf_scal. f_equal. apply sumf_ext_all. intros; ring.
Qed.
Lemma favg_fst h F : favg (fun p => h (fst p)) F = avg h (map fst F).
Proof. unfold favg, avg, sumf. rewrite !map_map. reflexivity. Qed.
Lemma favg_le f g F : good_layers (map fst F) -> Forall (fun p => f p <= g p) F -> favg f F <= favg g F.
Proof.
  intros (H1 & H2 & _) H. unfold favg. apply Rmult_le_compat_r; [left; apply Rinv_0_lt_compat; auto|].
  rewrite Forall_map in H1. apply sumf_le. rewrite Forall_forall in *. intros p Hp. specialize (H p Hp); specialize (H1 p Hp).
  apply Rmult_le_compat_l; auto.
Qed.
Lemma favg_ext f g F : Forall (fun p => f p = g p) F -> favg f F = favg g F.
Proof.
  intros H. unfold favg. f_equal. apply sumf_ext. eapply Forall_impl; [|exact H]. cbn; intros p ->; reflexivity.
Qed.
Lemma favg_comp e F i : good_layers (map fst F) -> compatible e F -> (2 <= i <= 4)%nat -> favg (fun p => snd p i) F = e i.
Proof. intros (_ & H2 & _) (_ & H) Hi. unfold favg. rewrite H by auto. field. lra. Qed.

Lemma favg_one F : good_layers (map fst F) -> favg (fun _ => 1) F = 1.
Proof. intros (_ & H2 & _). rewrite (favg_fst (fun _ => 1)). apply avg_const; auto. Qed.

(** The energy of the effective medium. *)
Definition backus_mat (L : list layer) : rmat :=
  let H := avg (fun x => 1 / (ll x + 2 * lg x)) L in
  let A := avg (fun x => ll x / (ll x + 2 * lg x)) L in
  vti (avg (fun x => 4 * lg x * (ll x + lg x) / (ll x + 2 * lg x)) L + A^2 / H) (/ H) (A / H)
      (/ avg (fun x => 1 / lg x) L) (avg lg L).
Lemma backus_energy L e : good_layers L ->
  let H := avg (fun x => 1 / (ll x + 2 * lg x)) L in
  let A := avg (fun x => ll x / (ll x + 2 * lg x)) L in
  let N := avg (fun x => 1 / lg x) L in
  let s := e 0%nat + e 1%nat in
  0 < H /\ 0 < N /\
  energy (backus_mat L) e = (e 2%nat + A * s)^2 / H + avg (fun x => 2 * lg x * ll x / (ll x + 2 * lg x)) L * s^2
    + 2 * avg lg L * (e 0%nat ^ 2 + e 1%nat ^ 2) + (e 3%nat ^ 2 + e 4%nat ^ 2) / N + avg lg L * e 5%nat ^ 2.
Proof.
  intros HL H A N s. pose proof HL as (H1 & H2 & H3 & H4).
  assert (PH : 0 < H).
  { apply avg_pos; [assumption|]. eapply Forall_impl; [|exact H4]. cbn; intros; pos. }
  assert (PN : 0 < N).
  { apply avg_pos; [assumption|]. eapply Forall_impl; [|exact H3]. cbn; intros; pos. }
  split; [auto|split; [auto|]].
  assert (E : avg (fun x => 4 * lg x * (ll x + lg x) / (ll x + 2 * lg x)) L =
    avg (fun x => 2 * lg x * ll x / (ll x + 2 * lg x)) L + 2 * avg lg L).
  { rewrite <- avg_scal, <- avg_plus. apply avg_ext. eapply Forall_impl; [|exact H4]. cbn; intros; field; lra. }
  unfold backus_mat. fold H A N. rewrite E.
  set (B := avg (fun x => 2 * lg x * ll x / (ll x + 2 * lg x)) L). set (G := avg lg L). clearbody H A N B G.
  unfold energy, sum6, vti, ofrows; cbn [nth]. unfold s. field. lra.
Qed.

(** The lower bound of a layer's energy that is linear in its strain, for the stresses t (normal) and a, b (shear). *)
Definition tangent (e : nat -> R) (t a b : R) (p : layer * (nat -> R)) : R :=
  2 * t * (snd p 2%nat) + 2 * t * (e 0%nat + e 1%nat) * (ll (fst p) / (ll (fst p) + 2 * lg (fst p)))
  + (- t^2) * (1 / (ll (fst p) + 2 * lg (fst p)))
  + (e 0%nat + e 1%nat)^2 * (2 * lg (fst p) * ll (fst p) / (ll (fst p) + 2 * lg (fst p)))
  + (2 * (e 0%nat ^ 2 + e 1%nat ^ 2) + e 5%nat ^ 2) * lg (fst p)
  + 2 * a * snd p 3%nat + 2 * b * snd p 4%nat + (- (a^2 + b^2)) * (1 / lg (fst p)).
Lemma tangent_below e t a b p : 0 < lg (fst p) -> 0 < ll (fst p) + 2 * lg (fst p) ->
  snd p 0%nat = e 0%nat /\ snd p 1%nat = e 1%nat /\ snd p 5%nat = e 5%nat ->
  let M := ll (fst p) + 2 * lg (fst p) in
  layer_energy (fst p) (snd p) = tangent e t a b p
    + M * (snd p 2%nat + ll (fst p) / M * (e 0%nat + e 1%nat) - t / M)^2
    + lg (fst p) * ((snd p 3%nat - a / lg (fst p))^2 + (snd p 4%nat - b / lg (fst p))^2).
Proof.
  intros HG HM (E0 & E1 & E5) M. unfold layer_energy, tangent, M. rewrite E0, E1, E5. field. lra.
Qed.
Lemma tangent_mean e t a b F : good_layers (map fst F) -> compatible e F ->
  let L := map fst F in
  favg (tangent e t a b) F =
    2 * t * e 2%nat + 2 * t * (e 0%nat + e 1%nat) * avg (fun x => ll x / (ll x + 2 * lg x)) L
    + (- t^2) * avg (fun x => 1 / (ll x + 2 * lg x)) L
    + (e 0%nat + e 1%nat)^2 * avg (fun x => 2 * lg x * ll x / (ll x + 2 * lg x)) L
    + (2 * (e 0%nat ^ 2 + e 1%nat ^ 2) + e 5%nat ^ 2) * avg lg L
    + 2 * a * e 3%nat + 2 * b * e 4%nat + (- (a^2 + b^2)) * avg (fun x => 1 / lg x) L.
Proof.
  intros HL HC L. unfold tangent. rewrite !favg_plus, !favg_scal.
  rewrite (favg_comp e F 2), (favg_comp e F 3), (favg_comp e F 4) by (auto; lia).
  rewrite (favg_fst (fun x => ll x / (ll x + 2 * lg x))), (favg_fst (fun x => 1 / (ll x + 2 * lg x))),
    (favg_fst (fun x => 2 * lg x * ll x / (ll x + 2 * lg x))), (favg_fst lg), (favg_fst (fun x => 1 / lg x)). reflexivity.
Qed.
Lemma mean_favg F : mean_energy F = favg (fun p => layer_energy (fst p) (snd p)) F.
Proof. reflexivity. Qed.
Lemma energy_tangent L e : good_layers L ->
  let H := avg (fun x => 1 / (ll x + 2 * lg x)) L in
  let A := avg (fun x => ll x / (ll x + 2 * lg x)) L in
  let N := avg (fun x => 1 / lg x) L in
  forall F, map fst F = L -> compatible e F ->
  energy (backus_mat L) e =
    favg (tangent e ((e 2%nat + A * (e 0%nat + e 1%nat)) / H) (e 3%nat / N) (e 4%nat / N)) F.
Proof.
  intros HL H A N F EF HC. subst L. rewrite tangent_mean by auto.
  destruct (backus_energy _ e HL) as (PH & PN & E). rewrite E. fold H A N in PH, PN |- *.
  set (B := avg (fun x => 2 * lg x * ll x / (ll x + 2 * lg x)) (map fst F)). set (G := avg lg (map fst F)).
  clearbody H A N B G. field. lra.
Qed.
Lemma energy_least L e F : good_layers L -> map fst F = L -> compatible e F -> energy (backus_mat L) e <= mean_energy F.
Proof.
  intros HL EF HC. rewrite (energy_tangent L e HL F EF HC), mean_favg. subst L. apply favg_le; auto.
  destruct HL as (_ & _ & H3 & H4). rewrite Forall_map in H3, H4. destruct HC as (HC & _).
  rewrite Forall_forall in *. intros p Hp. specialize (H3 p Hp). specialize (H4 p Hp). specialize (HC p Hp).
  match goal with |- tangent _ ?t ?a ?b _ <= _ => rewrite (tangent_below e t a b p H3 H4 HC) end.
  match goal with |- ?x <= ?x + _ * ?y^2 + _ * (?z^2 + ?w^2) => pose proof (pow2_ge_0 y); pose proof (pow2_ge_0 z); pose proof (pow2_ge_0 w) end.
  rewrite Rplus_assoc, <- Rplus_0_r at 1. apply Rplus_le_compat_l. apply Rplus_le_le_0_compat; apply Rmult_le_pos; lra.
Qed.
(** The strains that reach it: the same stresses in every layer. *)
Definition best (L : list layer) (e : nat -> R) (x : layer) : nat -> R := fun i =>
  match i with
  | 2%nat => lay_e33 ((e 2%nat + avg (fun x => ll x / (ll x + 2 * lg x)) L * (e 0%nat + e 1%nat)) / avg (fun x => 1 / (ll x + 2 * lg x)) L) (e 0%nat) (e 1%nat) x
  | 3%nat | 4%nat => (e i / avg (fun x => 1 / lg x) L) / lg x
  | _ => e i
  end.
Definition best_field (L : list layer) (e : nat -> R) : field := map (fun x => (x, best L e x)) L.
Lemma best_fst L e : map fst (best_field L e) = L.
Proof. unfold best_field. rewrite map_map. apply map_id. Qed.
Lemma best_compatible L e : good_layers L -> compatible e (best_field L e).
Proof.
  intros HL. pose proof (backus_energy L e HL) as (PH & PN & _). destruct HL as (H1 & H2 & H3 & H4).
  set (H := avg (fun x => 1 / (ll x + 2 * lg x)) L) in *. set (N := avg (fun x => 1 / lg x) L) in *.
  set (A := avg (fun x => ll x / (ll x + 2 * lg x)) L).
  split.
  - apply Forall_forall. intros p Hp. apply in_map_iff in Hp. destruct Hp as (x & <- & _). cbn [fst snd best]. auto.
  - intros i Hi. rewrite best_fst.
    assert (E : sumf (fun p => lv (fst p) * snd p i) (best_field L e) = avg (fun x => best L e x i) L * sumf lv L).
    { unfold avg, best_field, sumf at 1. rewrite map_map. cbn [fst snd]. unfold sumf. field. unfold sumf in H2. lra. }
    rewrite E. f_equal.
    assert (C : i = 2%nat \/ i = 3%nat \/ i = 4%nat) by lia.
    destruct C as [->|[->| ->]]; cbn [best].
    + fold H A. set (t := (e 2%nat + A * (e 0%nat + e 1%nat)) / H).
      rewrite (avg_ext _ (fun x => t * (1 / (ll x + 2 * lg x)) + (- (e 0%nat + e 1%nat)) * (ll x / (ll x + 2 * lg x)))).
      2:{ eapply Forall_impl; [|exact H4]. cbn; intros x Hx. unfold lay_e33. field. lra. }
      rewrite avg_plus, !avg_scal. fold H A. unfold t. field. lra.
    + fold N. rewrite (avg_ext _ (fun x => e 3%nat / N * (1 / lg x))).
      2:{ eapply Forall_impl; [|exact H3]. cbn; intros x Hx. field. lra. }
      rewrite avg_scal. fold N. field. lra.
    + fold N. rewrite (avg_ext _ (fun x => e 4%nat / N * (1 / lg x))).
      2:{ eapply Forall_impl; [|exact H3]. cbn; intros x Hx. field. lra. }
      rewrite avg_scal. fold N. field. lra.
Qed.
Lemma best_energy L e : good_layers L -> energy (backus_mat L) e = mean_energy (best_field L e).
Proof.
  intros HL. pose proof (best_compatible L e HL) as HC. rewrite (energy_tangent L e HL _ (best_fst L e) HC), mean_favg.
  apply favg_ext. pose proof (backus_energy L e HL) as (PH & PN & _). destruct HL as (_ & _ & H3 & H4).
  rewrite Forall_forall in *. intros p Hp.
  assert (Hq := proj1 HC). rewrite Forall_forall in Hq. specialize (Hq p Hp).
  apply in_map_iff in Hp. destruct Hp as (x & <- & Hx). specialize (H3 x Hx). specialize (H4 x Hx).
  match goal with |- tangent _ ?t ?a ?b ?p = _ => rewrite (tangent_below e t a b p H3 H4 Hq) end.
  cbn [fst snd best].
  set (H := avg (fun x => 1 / (ll x + 2 * lg x)) L) in *. set (N := avg (fun x => 1 / lg x) L) in *.
  set (A := avg (fun x => ll x / (ll x + 2 * lg x)) L). unfold lay_e33.
  match goal with |- ?T = ?T + ?a * ?y^2 + ?b * (?z^2 + ?w^2) => assert (Y : y = 0); [|assert (Z : z = 0); [|assert (W : w = 0)]] end.
  - cbn in H4 |- *. field. split; lra.
  - ring.
  - ring.
  - rewrite Y, Z, W. ring.
Qed.

(** ** Stiffer layers *)
Lemma layer_energy_KG x e : layer_energy x e = lk x * (e 0%nat + e 1%nat + e 2%nat)^2
  + lg x * (2 * ((e 0%nat - (e 0%nat + e 1%nat + e 2%nat) / 3)^2 + (e 1%nat - (e 0%nat + e 1%nat + e 2%nat) / 3)^2
                 + (e 2%nat - (e 0%nat + e 1%nat + e 2%nat) / 3)^2) + e 3%nat ^ 2 + e 4%nat ^ 2 + e 5%nat ^ 2).
Proof. unfold layer_energy, lk. field. Qed.
Lemma iso_energy K G e : energy (iso K G) e = K * (e 0%nat + e 1%nat + e 2%nat)^2
  + G * (2 * ((e 0%nat - (e 0%nat + e 1%nat + e 2%nat) / 3)^2 + (e 1%nat - (e 0%nat + e 1%nat + e 2%nat) / 3)^2
                 + (e 2%nat - (e 0%nat + e 1%nat + e 2%nat) / 3)^2) + e 3%nat ^ 2 + e 4%nat ^ 2 + e 5%nat ^ 2).
Proof. unfold energy, sum6, iso, vti, ofrows; cbn [nth]. field. Qed.
Lemma layer_energy_mono x y e : lk x <= lk y -> lg x <= lg y -> layer_energy x e <= layer_energy y e.
Proof.
  intros HK HG. rewrite !layer_energy_KG. set (t := e 0%nat + e 1%nat + e 2%nat).
  apply Rplus_le_compat; apply Rmult_le_compat_r; auto; [apply pow2_ge_0|].
  repeat apply Rplus_le_le_0_compat; try apply pow2_ge_0. apply Rmult_le_pos; [lra|].
  repeat apply Rplus_le_le_0_compat; apply pow2_ge_0.
Qed.
Lemma energy_mono (P : list (layer * layer)) e :
  good_layers (map fst P) -> good_layers (map snd P) ->
  Forall (fun p => lv (fst p) = lv (snd p) /\ lk (fst p) <= lk (snd p) /\ lg (fst p) <= lg (snd p)) P ->
  energy (backus_mat (map fst P)) e <= energy (backus_mat (map snd P)) e.
Proof.
  intros HL HL' HP. set (L := map fst P) in *. set (L' := map snd P) in *.
  rewrite (best_energy L' e HL').
  set (F := map (fun p => (fst p, best L' e (snd p))) P).
  assert (EF : map fst F = L) by (unfold F, L; rewrite map_map; reflexivity).
  assert (EV : sumf lv L = sumf lv L').
  { unfold L, L', sumf. rewrite !map_map. f_equal. apply map_ext_in. intros p Hp. rewrite Forall_forall in HP. apply HP; auto. }
  pose proof (best_compatible L' e HL') as (_ & HC).
  assert (CF : compatible e F).
  { split.
    - unfold F. apply Forall_forall. intros q Hq. apply in_map_iff in Hq. destruct Hq as (x & <- & _). cbn [fst snd best]. auto.
    - intros i Hi. rewrite EF, EV. specialize (HC i Hi). rewrite best_fst in HC. rewrite <- HC.
      unfold F, best_field, L', sumf. rewrite !map_map. cbn [fst snd]. f_equal. apply map_ext_in. intros p Hp.
      rewrite Forall_forall in HP. destruct (HP p Hp) as (-> & _). reflexivity. }
  eapply Rle_trans; [apply (energy_least L e F); auto|].
  unfold mean_energy. rewrite EF, best_fst, EV. destruct HL' as (H1 & H2 & _). unfold L' in H2 at 1.
  apply Rmult_le_compat_r; [left; apply Rinv_0_lt_compat; auto|].
  unfold F, best_field, L', sumf. rewrite !map_map. cbn [fst snd].
  change (sumf (fun p => lv (fst p) * layer_energy (fst p) (best L' e (snd p))) P
          <= sumf (fun p => lv (snd p) * layer_energy (snd p) (best L' e (snd p))) P).
  apply sumf_le. unfold L' in H1. rewrite Forall_map in H1. rewrite Forall_forall in *. intros p Hp.
  destruct (HP p Hp) as (E & HK & HG). rewrite E. apply Rmult_le_compat_l; [apply H1; auto|apply layer_energy_mono; auto].
Qed.

(** ** Voigt and Reuss *)
Lemma energy_voigt L e : good_layers L -> energy (backus_mat L) e <= energy (iso (avg lk L) (avg lg L)) e.
Proof.
  intros HL. set (F := map (fun x => (x, e)) L : field).
  assert (EF : map fst F = L) by (unfold F; rewrite map_map; apply map_id).
  assert (CF : compatible e F).
  { split.
    - unfold F. apply Forall_forall. intros q Hq. apply in_map_iff in Hq. destruct Hq as (x & <- & _). cbn [snd]. auto.
    - intros i Hi. rewrite EF. unfold F. unfold sumf. rewrite map_map. cbn [fst snd].
      change (sumf (fun x => lv x * e i) L = e i * sumf lv L). rewrite <- sumf_scal. apply sumf_ext_all. intros; ring. }
  eapply Rle_trans; [apply (energy_least L e F); auto|]. rewrite mean_favg, iso_energy.
  set (t := (e 0%nat + e 1%nat + e 2%nat)^2).
  set (d := 2 * ((e 0%nat - (e 0%nat + e 1%nat + e 2%nat) / 3)^2 + (e 1%nat - (e 0%nat + e 1%nat + e 2%nat) / 3)^2
                 + (e 2%nat - (e 0%nat + e 1%nat + e 2%nat) / 3)^2) + e 3%nat ^ 2 + e 4%nat ^ 2 + e 5%nat ^ 2).
  rewrite (favg_ext _ (fun p => t * lk (fst p) + d * lg (fst p))).
  - rewrite favg_plus, !favg_scal, (favg_fst lk), (favg_fst lg), EF. right; ring.
  - unfold F. apply Forall_forall. intros q Hq. apply in_map_iff in Hq. destruct Hq as (x & <- & _). cbn [fst snd].
    rewrite layer_energy_KG. fold t d. ring.
Qed.
Lemma sq_tangent k y a : 0 < k -> 2 * a * y + (- a^2) * (1 / k) <= k * y^2.
Proof.
  intros Hk. replace (k * y^2) with (2 * a * y + (- a^2) * (1 / k) + k * (y - a / k)^2) by (field; lra).
  pose proof (pow2_ge_0 (y - a / k)). nra.
Qed.
Lemma energy_reuss L e : good_layers L -> Forall (fun x => 0 < lk x) L ->
  energy (iso (/ avg (fun x => 1 / lk x) L) (/ avg (fun x => 1 / lg x) L)) e <= energy (backus_mat L) e.
Proof.
  intros HL HK. rewrite (best_energy L e HL), mean_favg, iso_energy.
  pose proof (best_compatible L e HL) as HC. pose proof (best_fst L e) as EF. set (F := best_field L e) in *.
  assert (PK : 0 < avg (fun x => 1 / lk x) L) by (apply avg_pos; auto; eapply Forall_impl; [|exact HK]; cbn; intros; pos).
  assert (PN : 0 < avg (fun x => 1 / lg x) L).
  { apply avg_pos; auto. destruct HL as (_ & _ & H3 & _). eapply Forall_impl; [|exact H3]; cbn; intros; pos. }
  set (k := avg (fun x => 1 / lk x) L) in *. set (n := avg (fun x => 1 / lg x) L) in *.
  set (t := e 0%nat + e 1%nat + e 2%nat).
  assert (HLF : good_layers (map fst F)) by (rewrite EF; auto).
  assert (AV : forall i, (i < 6)%nat -> favg (fun p => snd p i) F = e i).
  { intros i Hi. destruct (Nat.le_decidable 2 i) as [H2|H2]; [destruct (Nat.le_decidable i 4) as [H4|H4]|].
    - apply (favg_comp e F i); auto; lia.
    - assert (i = 5%nat) by lia; subst i. rewrite (favg_ext _ (fun p => e 5%nat * 1)).
      + rewrite (favg_scal _ (fun _ => 1)), favg_one by auto. ring.
      + destruct HC as (HC & _). eapply Forall_impl; [|exact HC]. cbn; intros p (_ & _ & ->). ring.
    - assert (C : i = 0%nat \/ i = 1%nat) by lia. destruct C as [->| ->].
      + rewrite (favg_ext _ (fun p => e 0%nat * 1)).
        * rewrite (favg_scal _ (fun _ => 1)), favg_one by auto. ring.
        * destruct HC as (HC & _). eapply Forall_impl; [|exact HC]. cbn; intros p (-> & _). ring.
      + rewrite (favg_ext _ (fun p => e 1%nat * 1)).
        * rewrite (favg_scal _ (fun _ => 1)), favg_one by auto. ring.
        * destruct HC as (HC & _). eapply Forall_impl; [|exact HC]. cbn; intros p (_ & -> & _). ring. }
  set (a := t / k). set (b := fun i => (e i - t / 3) / n). set (c := fun i => e i / n).
  set (Q := fun p : layer * (nat -> R) =>
    2 * a * snd p 0%nat + 2 * a * snd p 1%nat + 2 * a * snd p 2%nat + (- a^2) * (1 / lk (fst p))
    + 4 * b 0%nat * snd p 0%nat + 4 * b 1%nat * snd p 1%nat + 4 * b 2%nat * snd p 2%nat
    + (- (4 * (b 0%nat + b 1%nat + b 2%nat) / 3)) * snd p 0%nat + (- (4 * (b 0%nat + b 1%nat + b 2%nat) / 3)) * snd p 1%nat
    + (- (4 * (b 0%nat + b 1%nat + b 2%nat) / 3)) * snd p 2%nat
    + 2 * c 3%nat * snd p 3%nat + 2 * c 4%nat * snd p 4%nat + 2 * c 5%nat * snd p 5%nat
    + (- (2 * (b 0%nat ^ 2 + b 1%nat ^ 2 + b 2%nat ^ 2) + c 3%nat ^ 2 + c 4%nat ^ 2 + c 5%nat ^ 2)) * (1 / lg (fst p))).
  apply Rle_trans with (favg Q F).
  - right. unfold Q. rewrite !favg_plus, !favg_scal, !AV by lia.
    rewrite (favg_fst (fun x => 1 / lk x)), (favg_fst (fun x => 1 / lg x)), EF. fold k n.
    unfold a, b, c, t. field. lra.
  - apply favg_le; auto. destruct HL as (_ & _ & H3 & _).
    apply Forall_forall. intros p Hp. assert (Hx : In (fst p) L) by (rewrite <- EF; apply in_map; auto).
    rewrite Forall_forall in H3, HK. specialize (H3 _ Hx). specialize (HK _ Hx).
    rewrite layer_energy_KG. set (T := snd p 0%nat + snd p 1%nat + snd p 2%nat).
    pose proof (sq_tangent (lk (fst p)) T a HK).
    pose proof (sq_tangent (lg (fst p)) (snd p 0%nat - T / 3) (b 0%nat) H3).
    pose proof (sq_tangent (lg (fst p)) (snd p 1%nat - T / 3) (b 1%nat) H3).
    pose proof (sq_tangent (lg (fst p)) (snd p 2%nat - T / 3) (b 2%nat) H3).
    pose proof (sq_tangent (lg (fst p)) (snd p 3%nat) (c 3%nat) H3).
    pose proof (sq_tangent (lg (fst p)) (snd p 4%nat) (c 4%nat) H3).
    pose proof (sq_tangent (lg (fst p)) (snd p 5%nat) (c 5%nat) H3).
    unfold Q. unfold T in *. lra.
Qed.
Lemma vrh_layers L h : good_layers L -> Forall (fun x => 0 < h x) L ->
  exists a, EM_VRH (map (fun x => Fin (lv x / sumf lv L)) L) (map (fun x => Fin (h x)) L) =
    Ret (Fin (avg h L), Fin (/ avg (fun x => 1 / h x) L), Fin a).
Proof.
  intros (H1 & H2 & _) Hh. eexists.
  assert (SM : forall (f : R * R -> R) g, sumf f (map g L) = sumf (fun x => f (g x)) L) by (intros; unfold sumf; rewrite map_map; reflexivity).
  pose proof (VRH_fin (map (fun x => (lv x / sumf lv L, h x)) L)) as E. rewrite !map_map in E. cbn [fst snd] in E.
  rewrite E.
  - cbv zeta. rewrite !SM. cbn [fst snd].
    assert (Q : forall g, sumf (fun x => lv x / sumf lv L * g x) L = avg g L).
    { intros g. unfold avg, Rdiv. rewrite Rmult_comm, <- sumf_scal. apply sumf_ext_all. intros; ring. }
    rewrite (Q h), (Q (fun x => 1 / h x)). reflexivity.
  - rewrite Forall_map. eapply Forall_impl; [|exact H1]. cbn; intros. apply Rmult_le_pos; [auto|left; apply Rinv_0_lt_compat; auto].
  - rewrite SM. cbn [fst].
    rewrite (sumf_ext_all _ (fun x => / sumf lv L * lv x)) by (intros; unfold Rdiv; ring).
    rewrite sumf_scal, Rinv_l by lra. lra.
  - rewrite Forall_map. exact Hh.
Qed.

(** ** Thomsen's parameters *)
Lemma sumf_zero_all {A} (f : A -> R) L : Forall (fun x => 0 <= f x) L -> sumf f L = 0 -> Forall (fun x => f x = 0) L.
Proof.
  induction 1 as [|x L Hx HL IH]; intros E; constructor.
  - rewrite sumf_cons in E. pose proof (sumf_nonneg f L HL). lra.
  - rewrite sumf_cons in E. pose proof (sumf_nonneg f L HL). apply IH. lra.
Qed.
Lemma avg_zero h L : good_layers L -> Forall (fun x => 0 <= h x) L -> avg h L = 0 -> Forall (fun x => 0 < lv x -> h x = 0) L.
Proof.
  intros (H1 & H2 & _) Hh E. unfold avg in E.
  assert (S : sumf (fun x => lv x * h x) L = 0).
  { apply (Rmult_eq_reg_r (/ sumf lv L)); [rewrite Rmult_0_l; exact E|apply Rinv_neq_0_compat; lra]. }
  apply sumf_zero_all in S.
  - eapply Forall_impl; [|exact S]. cbn; intros x Hx Hv. apply Rmult_integral in Hx. destruct Hx; lra.
  - rewrite Forall_forall in *. intros x Hx. apply Rmult_le_pos; [apply H1|apply Hh]; auto.
Qed.
Lemma avg_ext_pos f g L : good_layers L -> Forall (fun x => 0 < lv x -> f x = g x) L -> avg f L = avg g L.
Proof.
  intros (H1 & _) H. unfold avg. f_equal. apply sumf_ext. rewrite Forall_forall in *. intros x Hx.
  specialize (H1 x Hx); specialize (H x Hx). cbn in *. destruct H1 as [P|<-]; [rewrite H; auto|ring].
Qed.
Lemma avg_nonneg h L : good_layers L -> Forall (fun x => 0 <= h x) L -> 0 <= avg h L.
Proof.
  intros (H1 & H2 & _) Hh. unfold avg. apply Rmult_le_pos; [|left; apply Rinv_0_lt_compat; auto].
  apply sumf_nonneg. rewrite Forall_forall in *. intros x Hx. apply Rmult_le_pos; [apply H1|apply Hh]; auto.
Qed.
(** Weighted Cauchy-Schwarz and when it is an equality. *)
Lemma cauchy_shear w L : good_layers L -> Forall (fun x => 0 < w x) L ->
  let D := avg (fun x => w x * lg x) L * avg (fun x => w x / lg x) L - (avg w L)^2 in
  0 <= D /\ (D = 0 <-> same_shear L).
Proof.
  intros HL Hw D. pose proof HL as (H1 & H2 & H3 & H4).
  assert (HP : 0 < avg (fun x => w x * lg x) L).
  { apply avg_pos; auto. rewrite Forall_forall in *. intros x Hx. apply Rmult_lt_0_compat; auto. }
  set (P := avg (fun x => w x * lg x) L) in *. set (Q := avg (fun x => w x / lg x) L) in *. set (S := avg w L) in *.
  set (c := S / P). set (g := fun x => w x / lg x * (1 - c * lg x)^2).
  assert (Pg : Forall (fun x => 0 <= g x) L).
  { rewrite Forall_forall in *. intros x Hx. unfold g. apply Rmult_le_pos; [|apply pow2_ge_0].
    left. apply Rdiv_lt_0_compat; auto. }
  assert (E : D = P * avg g L).
  { unfold g. rewrite (avg_ext _ (fun x => w x / lg x + ((-2 * c) * w x + c^2 * (w x * lg x)))).
    - rewrite !avg_plus, !avg_scal. fold P Q S. unfold D, c. field. lra.
    - eapply Forall_impl; [|exact H3]. cbn; intros; field; lra. }
  split; [rewrite E; apply Rmult_le_pos; [lra|apply avg_nonneg; auto]|]. split.
  - intros Z. rewrite E in Z. apply Rmult_integral in Z. destruct Z as [Z|Z]; [lra|].
    apply avg_zero in Z; auto. exists (/ c). rewrite Forall_forall in *. intros x Hx Hv. specialize (Z x Hx Hv).
    specialize (H3 x Hx); specialize (Hw x Hx). unfold g in Z. apply Rmult_integral in Z. destruct Z as [Z|Z].
    + assert (0 < w x / lg x) by (apply Rdiv_lt_0_compat; auto). lra.
    + assert (1 - c * lg x = 0) by nra.
      assert (c <> 0) by (intros C0; rewrite C0 in *; lra). apply (Rmult_eq_reg_l c); auto. rewrite Rinv_r by auto. lra.
  - intros (G & HG).
    assert (G0 : G <> 0).
    { intros ->. assert (Forall (fun x => lv x = 0) L).
      { rewrite Forall_forall in *. intros x Hx. specialize (H1 x Hx). specialize (H3 x Hx). specialize (HG x Hx). cbn in *.
        destruct H1 as [V|V]; [|lra]. specialize (HG V); lra. }
      rewrite (sumf_ext _ (fun x => 0 * lv x)) in H2 by (eapply Forall_impl; [|exact H]; cbn; intros; lra).
      rewrite sumf_scal in H2. lra. }
    unfold D, P, Q, S.
    rewrite (avg_ext_pos (fun x => w x * lg x) (fun x => G * w x)), (avg_ext_pos (fun x => w x / lg x) (fun x => / G * w x)), !avg_scal; auto.
    + field; auto.
    + eapply Forall_impl; [|exact HG]. cbn; intros x Hx Hv. rewrite Hx by auto. unfold Rdiv; ring.
    + eapply Forall_impl; [|exact HG]. cbn; intros x Hx Hv. rewrite Hx by auto. ring.
Qed.
Section Signs.
Variable L : list layer.
Hypothesis HL : good_layers L.
Hypothesis HK : Forall (fun x => 0 < lk x) L.
Let H := avg (fun x => 1 / (ll x + 2 * lg x)) L.
Let A := avg (fun x => ll x / (ll x + 2 * lg x)) L.
Let N := avg (fun x => 1 / lg x) L.
Let phi (x : layer) := (ll x + lg x) / (ll x + 2 * lg x).
Let S := avg phi L.
Let P := avg (fun x => phi x * lg x) L.
Let Q := avg (fun x => phi x / lg x) L.
Lemma phi_pos : Forall (fun x => 0 < phi x) L.
Proof.
  destruct HL as (_ & _ & H3 & H4). rewrite Forall_forall in *. intros x Hx. specialize (H3 x Hx). specialize (H4 x Hx).
  specialize (HK x Hx). unfold phi, lk in *. cbn in *. apply Rdiv_lt_0_compat; lra.
Qed.
Lemma H_pos : 0 < H.
Proof. apply avg_pos; auto. destruct HL as (_ & _ & _ & H4). eapply Forall_impl; [|exact H4]. cbn; intros; pos. Qed.
Lemma N_pos : 0 < N.
Proof. apply avg_pos; auto. destruct HL as (_ & _ & H3 & _). eapply Forall_impl; [|exact H3]. cbn; intros; pos. Qed.
Lemma Q_pos : 0 < Q.
Proof.
  apply avg_pos; auto. pose proof phi_pos as PP. destruct HL as (_ & _ & H3 & _). rewrite Forall_forall in *.
  intros x Hx. apply Rdiv_lt_0_compat; auto.
Qed.
Lemma A_S : A = 2 * S - 1.
Proof.
  unfold A, S. rewrite (avg_ext _ (fun x => 2 * phi x + (-1) * (fun _ => 1) x)).
  - rewrite avg_plus, avg_scal, (avg_scal (-1) (fun _ => 1)), avg_const by apply HL. ring.
  - destruct HL as (_ & _ & _ & H4). eapply Forall_impl; [|exact H4]. cbn; intros; unfold phi; field; lra.
Qed.
Lemma N_H : N = H + Q.
Proof.
  unfold N, H, Q. rewrite <- avg_plus. apply avg_ext. destruct HL as (_ & _ & H3 & H4). rewrite Forall_forall in *. intros x Hx.
  specialize (H3 x Hx). specialize (H4 x Hx). cbn in *. unfold phi. field. lra.
Qed.
Lemma c11_P : avg (fun x => 4 * lg x * (ll x + lg x) / (ll x + 2 * lg x)) L = 4 * P.
Proof.
  unfold P. rewrite <- avg_scal. apply avg_ext. destruct HL as (_ & _ & H3 & H4). eapply Forall_impl; [|exact H4].
  cbn; intros; unfold phi; field; lra.
Qed.
Lemma eps_flat M : Forall (fun x => ll x + 2 * lg x = M) L ->
  (4 * P + (2 * S - 1)^2 / H - / H) / (2 * / H) = - 2 * avg (fun x => (phi x - S)^2) L /\ 0 < M.
Proof.
  intros HM. pose proof H_pos as PH.
  assert (PM : 0 < M).
  { destruct HL as (_ & H2 & _ & H4). destruct L as [|x L']; [unfold sumf in H2; simpl in H2; lra|].
    inversion HM; inversion H4; subst. auto. }
  split; auto.
  assert (EH : H = / M).
  { unfold H. rewrite (avg_ext _ (fun _ => / M)); [apply avg_const, HL|].
    eapply Forall_impl; [|exact HM]. cbn; intros x ->. field. lra. }
  assert (EP : P = M * (S - avg (fun x => phi x ^ 2) L)).
  { unfold P, S. replace (avg phi L - avg (fun x => phi x ^ 2) L) with (avg (fun x => phi x + (-1) * phi x ^ 2) L)
      by (rewrite avg_plus, avg_scal; ring).
    rewrite <- avg_scal. apply avg_ext. eapply Forall_impl; [|exact HM]. cbn; intros x Hx. unfold phi. rewrite Hx.
    replace (lg x) with ((M - ll x) / 2) by lra. field. lra. }
  assert (EV : avg (fun x => (phi x - S)^2) L = avg (fun x => phi x ^ 2) L - S^2).
  { rewrite (avg_ext _ (fun x => phi x ^ 2 + ((-2 * S) * phi x + S^2 * (fun _ => 1) x))) by (apply Forall_forall; intros; ring).
    rewrite !avg_plus, avg_scal, (avg_scal (S^2) (fun _ => 1)), avg_const by apply HL. fold S. ring. }
  rewrite EV, EP, EH. field. lra.
Qed.
Lemma thomsen_layers m den th : 0 < den -> exists c11 c33 c13 c44 c66 vp vsv vsh e g d,
  backus_call L = Ret (Fin c11, Fin c33, Fin c13, Fin c44, Fin c66) /\
  Anis_Thomsen m (Fin c11) (Fin c33) (Fin c13) (Fin c44) (Fin c66) (Fin den) (Fin th) =
    Ret (Fin vp, Fin vsv, Fin vsh, Fin e, Fin g, Fin d) /\
  0 <= g /\ d <= e /\ (g = 0 <-> same_shear L) /\ (e = d <-> same_shear L) /\
  (forall r, Forall (fun x => lg x = r * (ll x + 2 * lg x)) L -> d = 0) /\
  (forall M, Forall (fun x => ll x + 2 * lg x = M) L -> e <= 0 /\ (e = 0 -> same_shear L)).
Proof.
  intros Hd. do 11 eexists. split; [apply Backus_eval; auto|].
  pose proof H_pos as PH. pose proof N_pos as PN. pose proof Q_pos as PQ. pose proof N_H as EN.
  cbv zeta. fold H A N. rewrite A_S, c11_P.
  assert (NE : / H <> / N) by (intros C; assert (H = N) by (rewrite <- (Rinv_inv H), <- (Rinv_inv N), C; reflexivity); lra).
  split; [rewrite Thomsen_eval by (try pos; auto); cbv zeta; reflexivity|].
  assert (F1 : (avg lg L - / N) / (2 * / N) = (avg lg L * N - 1^2) / 2) by (field; lra).
  assert (F2 : (4 * P + (2 * S - 1)^2 / H - / H) / (2 * / H)
    - (((2 * S - 1) / H + / N)^2 - (/ H - / N)^2) / (2 * / H * (/ H - / N)) = 2 * H * (P * Q - S^2) / Q).
  { rewrite EN. field. lra. }
  pose proof (cauchy_shear (fun _ => 1) L HL ltac:(apply Forall_forall; intros; lra)) as (C1 & C2).
  rewrite avg_const in C1, C2 by apply HL.
  assert (X1 : avg (fun x => 1 * lg x) L = avg lg L) by (apply avg_ext, Forall_forall; intros; ring).
  rewrite X1 in C1, C2. fold N in C1, C2.
  pose proof (cauchy_shear phi L HL phi_pos) as (C3 & C4). fold P Q S in C3, C4.
  repeat split.
  - rewrite F1. apply Rmult_le_pos; lra.
  - match goal with |- ?d <= ?e => assert (0 <= e - d) end; [|lra]. rewrite F2.
    apply Rmult_le_pos; [apply Rmult_le_pos; [lra|auto]|left; apply Rinv_0_lt_compat; auto].
  - intros G0. rewrite F1 in G0. apply C2. lra.
  - intros SS. rewrite F1. apply C2 in SS. rewrite SS. lra.
  - intros E. apply Rminus_diag_eq in E. rewrite F2 in E. apply C4. 
    apply (Rmult_eq_reg_l (2 * H / Q)); [|apply Rgt_not_eq, Rdiv_lt_0_compat; lra]. rewrite Rmult_0_r, <- E. field. lra.
  - intros SS. apply Rminus_diag_uniq. rewrite F2. apply C4 in SS. rewrite SS. field. lra.
  - intros r Hr.
    assert (EH : H = r * N).
    { unfold H, N. rewrite <- avg_scal. apply avg_ext. destruct HL as (_ & _ & H3 & H4). rewrite Forall_forall in *. intros x Hx.
      specialize (Hr x Hx); specialize (H3 x Hx). specialize (H4 x Hx). cbn in *. set (M := ll x + 2 * lg x) in *. clearbody M. rewrite Hr.
      assert (r <> 0) by (intros ->; lra). field. lra. }
    assert (ES : S = 1 - r).
    { unfold S. rewrite (avg_ext _ (fun _ => 1 - r)); [apply avg_const, HL|]. destruct HL as (_ & _ & H3 & H4).
      rewrite Forall_forall in *. intros x Hx. specialize (Hr x Hx). specialize (H4 x Hx). cbn in *. unfold phi.
      replace (ll x + lg x) with ((ll x + 2 * lg x) - lg x) by ring.
      set (M := ll x + 2 * lg x) in *. clearbody M. rewrite Hr. field. lra. }
    assert (r <> 0) by (intros ->; lra).
    assert (1 - r <> 0).
    { intros R1. assert (r = 1) by lra. subst r. lra. }
    rewrite ES, EH. field. repeat split; auto. intros C; apply H1; nra.
  - destruct (eps_flat M) as (E & _); auto. rewrite E.
    pose proof (avg_nonneg (fun x => (phi x - S)^2) L HL ltac:(apply Forall_forall; intros; apply pow2_ge_0)). lra.
  - destruct (eps_flat M) as (E & PM); auto. rewrite E. intros Z.
    assert (Z' : avg (fun x => (phi x - S)^2) L = 0) by lra.
    apply avg_zero in Z'; [|auto|apply Forall_forall; intros; apply pow2_ge_0].
    exists (M * (1 - S)). destruct HL as (_ & _ & _ & H4). rewrite Forall_forall in *. intros x Hx Hv.
    specialize (Z' x Hx Hv). specialize (H0 x Hx). cbn in *.
    assert (EP : phi x = S) by nra. rewrite <- EP. unfold phi. rewrite H0. replace (ll x + lg x) with (M - lg x) by lra. field. lra.
Qed.
End Signs.
