(** * Agreement between models: Hashin-Shtrikman, Gassmann, Reuss, self-consistent, Backus. *)
From Coq Require Import Lra Lia.
From Verif Require Import Fl M_Utils M_EM M_Anis M_Fluid Spec RealLemmas L_Utils L_Lists L_EM1 L_Anis L_Fluid1 L_EM6.
Open Scope R_scope.

(** ** The stiff Hashin-Shtrikman bound with a second phase that may be void or fluid *)
Lemma HS_upper0 m f K1 K2 G1 G2 : 0 < K1 -> 0 <= K2 -> 0 < G1 -> 0 <= G2 -> 0 <= f <= 1 -> K1 <> K2 -> G1 <> G2 ->
  EM_HS m (Fin f) (Fin K1) (Fin K2) (Fin G1) (Fin G2) "upper" =
  Ret (Fin (walpole (zK G1) f K1 K2), Fin (walpole (zG K1 G1) f G1 G2)).
Proof.
  intros HK1 HK2 HG1 HG2 Hf NK NG. unfold EM_HS. cbn [String.eqb Ascii.eqb Bool.eqb].
  assert (Pz := zG_pos K1 G1 HK1 HG1).
  assert (Pk : 0 < zK G1) by (apply zK_pos; auto).
  destruct (walpole_hs (zK G1) f K1 K2 NK Hf ltac:(lra) ltac:(lra)) as [D1 E1].
  destruct (walpole_hs (zG K1 G1) f G1 G2 NG Hf ltac:(lra) ltac:(lra)) as [D2 E2].
  assert (T := zG_temp K1 G1 HK1 HG1).
  assert (Q : K1 + zK G1 = K1 + 4 * G1 / 3) by (unfold zK; field). rewrite Q in D1, E1.
  assert (Q2 : 2 * f * ((K1 + 2 * G1) / (5 * G1 * (K1 + 4 * G1 / 3))) = f * (1 / (G1 + zG K1 G1))).
  { rewrite T. field. lra. }
  rewrite <- Q2 in D2, E2.
  fls. rewrite E1, E2. reflexivity.
Qed.

(** ** Gassmann on the stiff dry bound *)
Lemma wal_frac z f a b : 0 <= f <= 1 -> 0 < a + z -> 0 < b + z ->
  walpole z f a b = (a * b + z * (f * a + (1 - f) * b)) / ((1 - f) * a + f * b + z).
Proof. intros Hf Ha Hb. assert (D := wal_den f a b z Hf Ha Hb). unfold walpole. field. repeat split; lra. Qed.
Lemma gassmann_hs K0 G0 Kf phi : 0 < G0 -> 0 < Kf < K0 -> 0 < phi <= 1 ->
  gK (walpole (zK G0) (1 - phi) K0 0) K0 Kf phi = walpole (zK G0) (1 - phi) K0 Kf.
Proof.
  intros HG HK Hp. assert (Pk : 0 < zK G0) by (apply zK_pos; auto). set (z := zK G0) in *. clearbody z.
  assert (P : 0 < phi * K0) by (apply Rmult_lt_0_compat; lra).
  assert (P2 : phi * Kf <= Kf) by nra. assert (P1 : phi * Kf <= phi * K0) by nra.
  rewrite !wal_frac by lra. unfold gK, gB. rewrite ?Rmult_0_r, ?Rplus_0_l, ?Rplus_0_r.
  replace (1 - (1 - phi)) with phi by ring.
  field. repeat split; try lra.
  apply Rgt_not_eq. 
  replace ((phi * K0 + (1 - phi) * Kf) * (phi * K0 + z) - z * (1 - phi) * Kf) with (phi * K0 * (phi * K0 + (1 - phi) * Kf + z)) by ring.
  apply Rmult_lt_0_compat; [lra|]. assert (0 <= (1 - phi) * Kf) by (apply Rmult_le_pos; lra). lra.
Qed.
Lemma hs_dry_lt K0 G0 phi : 0 < K0 -> 0 < G0 -> 0 < phi <= 1 -> 0 <= walpole (zK G0) (1 - phi) K0 0 < K0.
Proof.
  intros HK HG Hp. assert (Pk : 0 < zK G0) by (apply zK_pos; auto).
  destruct (walpole_between (zK G0) (1 - phi) K0 0) as (A & _); try lra. split; [exact A|].
  rewrite wal_frac by lra. apply div_lt_iff; [assert (0 < phi * K0) by (apply Rmult_lt_0_compat; lra); lra|].
  assert (0 < phi * K0 * K0) by (repeat apply Rmult_lt_0_compat; lra).
  assert (0 < phi * K0 * zK G0) by (repeat apply Rmult_lt_0_compat; lra). nra.
Qed.
Lemma gassmann_reuss K0 Kf phi : 0 < Kf -> 0 < K0 -> 0 <= phi <= 1 -> gB 0 K0 Kf phi <> 0 /\
  gK 0 K0 Kf phi = 1 / ((1 - phi) / K0 + phi / Kf).
Proof.
  intros H1 H2 Hp. assert (P : 0 < (1 - phi) * Kf + phi * K0) by nra.
  assert (E : gB 0 K0 Kf phi = ((1 - phi) * Kf + phi * K0) / (K0 * Kf)) by (unfold gB; field; lra).
  assert (N : gB 0 K0 Kf phi <> 0).
  { rewrite E. apply Rgt_not_eq. apply Rdiv_lt_0_compat; [lra|]. apply Rmult_lt_0_compat; lra. }
  split; [exact N|]. unfold gK. rewrite E. field. repeat split; lra.
Qed.

(** ** Fixed points of the self-consistent iteration *)
Lemma sc_walpole z f a b x : 0 <= f <= 1 -> 0 < a + z -> 0 < b + z -> 0 < x + z ->
  a + f * (b - a) * ((x + z) / (b + z)) = x <-> x = walpole z (1 - f) a b.
Proof.
  intros Hf Ha Hb Hx. assert (D := wal_den (1 - f) a b z ltac:(lra) Ha Hb). replace (1 - (1 - f)) with f in D by ring.
  rewrite wal_frac by lra. replace (1 - (1 - f)) with f by ring.
  assert (E : a + f * (b - a) * ((x + z) / (b + z)) - x = ((a * b + z * ((1 - f) * a + f * b)) - x * (f * a + (1 - f) * b + z)) / (b + z)) by (field; lra).
  split; intros H.
  - rewrite H in E. assert (Q : (a * b + z * ((1 - f) * a + f * b)) - x * (f * a + (1 - f) * b + z) = 0).
    { apply (Rmult_eq_reg_r (/ (b + z))); [|apply Rinv_neq_0_compat; lra]. unfold Rdiv in E. lra. }
    apply (Rmult_eq_reg_r (f * a + (1 - f) * b + z)); [|lra]. unfold Rdiv. rewrite Rmult_assoc, Rinv_l by lra. lra.
  - assert (Q : x * (f * a + (1 - f) * b + z) = a * b + z * ((1 - f) * a + f * b)) by (rewrite H; field; lra).
    assert (Q2 : ((a * b + z * ((1 - f) * a + f * b)) - x * (f * a + (1 - f) * b + z)) / (b + z) = 0) by (rewrite Q; unfold Rdiv; ring).
    lra.
Qed.
Lemma zG_xi K G : 0 < K -> 0 < G -> xi K G = zG K G.
Proof. intros. unfold xi, zG. field. lra. Qed.
Lemma flex_fixed m f Km Gm Ki Gi K G : 0 < Km -> 0 < Gm -> 0 <= Ki -> 0 <= Gi -> 0 < K -> 0 < G -> K <> Ki -> G <> Gi -> 0 <= f <= 1 ->
  EM_SC_flex_step m (Fin f) (Fin Km) (Fin Ki) (Fin Gm) (Fin Gi) (Fin K) (Fin G) = Ret (Fin K, Fin G) <->
  K = walpole (zK G) (1 - f) Km Ki /\ G = walpole (zG K G) (1 - f) Gm Gi.
Proof.
  intros. rewrite flex_step by lra. unfold sp, sq. rewrite zG_xi by assumption.
  assert (Pk : 0 < zK G) by (apply zK_pos; auto). assert (Pz := zG_pos K G H3 H4).
  change (4/3 * G) with (zK G).
  rewrite <- !sc_walpole by lra. split; [intros E; inversion E; subst; split; congruence|]. intros (-> & ->). reflexivity.
Qed.
Lemma sc_bounds f Km Gm Ki Gi K G : 0 < Ki < Km -> 0 < Gi < Gm -> 0 < K -> 0 < G -> 0 <= f <= 1 ->
  K = walpole (zK G) f Km Ki -> G = walpole (zG K G) f Gm Gi ->
  walpole (zK Gi) f Km Ki <= K <= walpole (zK Gm) f Km Ki /\ walpole (zG Ki Gi) f Gm Gi <= G <= walpole (zG Km Gm) f Gm Gi.
Proof.
  intros HK HG PK PG Hf EK EG.
  assert (Pk : 0 < zK G) by (apply zK_pos; auto). assert (Pz := zG_pos K G PK PG).
  assert (BK : Ki <= K <= Km) by (rewrite EK; apply walpole_between; lra).
  assert (BG : Gi <= G <= Gm) by (rewrite EG; apply walpole_between; lra).
  assert (zK Gi <= zK G <= zK Gm) by (unfold zK; lra). assert (0 < zK Gi) by (unfold zK; lra).
  assert (zG Ki Gi <= zG K G) by (apply zG_mono; lra). assert (zG K G <= zG Km Gm) by (apply zG_mono; lra).
  assert (0 < zG Ki Gi) by (apply zG_pos; lra).
  split; [rewrite EK|rewrite EG]; split; apply walpole_mono_z; lra.
Qed.

(** ** Layers with a common shear modulus *)
Lemma avg_const c L : sumf lv L <> 0 -> avg (fun _ => c) L = c.
Proof.
  intros H. unfold avg. rewrite (sumf_ext_all _ (fun x => c * lv x)) by (intros; ring). rewrite sumf_scal. field. exact H.
Qed.
Lemma avg_ext h k L : Forall (fun x => h x = k x) L -> avg h L = avg k L.
Proof. intros H. unfold avg. f_equal. apply sumf_ext. eapply Forall_impl; [|exact H]. cbn. intros x ->. reflexivity. Qed.
Lemma avg_lin a b h k L : avg (fun x => a * h x + b * k x) L = a * avg h L + b * avg k L.
Proof.
  unfold avg. rewrite (sumf_ext_all _ (fun x => a * (lv x * h x) + b * (lv x * k x))) by (intros; ring).
  rewrite sumf_plus, !sumf_scal. unfold Rdiv. ring.
Qed.
Lemma Backus_equal_shear L G : good_layers L -> Forall (fun x => lg x = G) L ->
  let H := avg (fun x => 1 / (ll x + 2 * lg x)) L in 0 < H /\
  backus_call L = Ret (Fin (/ H), Fin (/ H), Fin (/ H - 2 * G), Fin G, Fin G).
Proof.
  intros HL HG H. pose proof HL as (P1 & P2 & P3 & P4).
  assert (PH : 0 < H).
  { apply avg_pos; [exact HL|]. eapply Forall_impl; [|exact P4]. cbn. intros. apply Rdiv_lt_0_compat; lra. }
  assert (PG : 0 < G).
  { destruct L as [|x L]; [unfold sumf in P2; cbn in P2; lra|]. inversion P3; inversion HG; subst. assumption. }
  split; [exact PH|].
  rewrite Backus_eval by exact HL. cbv zeta. fold H.
  assert (FF : Forall (fun x => lg x = G /\ 0 < ll x + 2 * lg x) L).
  { apply Forall_forall. intros x Hx. rewrite Forall_forall in HG, P4. auto. }
  assert (EA : avg (fun x => ll x / (ll x + 2 * lg x)) L = 1 - 2 * G * H).
  { rewrite (avg_ext _ (fun x => 1 * 1 + (- (2 * G)) * (1 / (ll x + 2 * lg x)))).
    - rewrite (avg_lin 1 (- (2 * G)) (fun _ => 1)), avg_const by lra. fold H. ring.
    - eapply Forall_impl; [|exact FF]. cbn. intros x (E & P). rewrite E in *. field. lra. }
  assert (EB : avg (fun x => 4 * lg x * (ll x + lg x) / (ll x + 2 * lg x)) L = 4 * G - 4 * G^2 * H).
  { rewrite (avg_ext _ (fun x => (4 * G) * 1 + (- (4 * G^2)) * (1 / (ll x + 2 * lg x)))).
    - rewrite (avg_lin (4 * G) (- (4 * G^2)) (fun _ => 1)), avg_const by lra. fold H. ring.
    - eapply Forall_impl; [|exact FF]. cbn -[pow]. intros x (E & P). rewrite E in *. field. lra. }
  assert (EC : avg (fun x => 1 / lg x) L = / G).
  { rewrite (avg_ext _ (fun _ => / G)); [apply avg_const; lra|]. eapply Forall_impl; [|exact HG]. cbn. intros x ->. field. lra. }
  assert (ED : avg lg L = G).
  { rewrite (avg_ext _ (fun _ => G)); [apply avg_const; lra|]. exact HG. }
  rewrite EA, EB, EC, ED. reteq; field; lra.
Qed.

(** ** Two-phase averages *)
Lemma VRH_two K0 Kf phi : 0 < K0 -> 0 < Kf -> 0 <= phi <= 1 -> exists v h,
  EM_VRH [Fin (1 - phi); Fin phi] [Fin K0; Fin Kf] = Ret (Fin v, Fin (1 / ((1 - phi) / K0 + phi / Kf)), Fin h).
Proof.
  intros H0 Hf Hp. assert (E := VRH_fin [(1 - phi, K0); (phi, Kf)]). cbn [map fst snd] in E. rewrite E.
  - cbv zeta. replace (/ sumf (fun p => fst p * (1 / snd p)) [(1 - phi, K0); (phi, Kf)]) with (1 / ((1 - phi) / K0 + phi / Kf)); [do 2 eexists; reflexivity|].
    rewrite !sumf_cons. change (sumf (fun p : R * R => fst p * (1 / snd p)) []) with 0. cbn [fst snd]. unfold Rdiv. rewrite !Rmult_1_l. apply f_equal. ring.
  - apply Forall_cons; [cbn; lra|apply Forall_cons; [cbn; lra|apply Forall_nil]].
  - unfold sumf. cbn. lra.
  - apply Forall_cons; [cbn; lra|apply Forall_cons; [cbn; lra|apply Forall_nil]].
Qed.
