(** * L_Double: double-precision runs without overflow or underflow are runs with rounding errors of at most 2^-53 (C86). *)
From Coq Require Import ZArith Lia Lra.
From Flocq Require Import Raux Defs Generic_fmt FLT Round_NE Ulp Relative Plus_error BinarySingleNaN.
From Verif Require Import Fl M_Array M_Round Spec18 M_Double Spec22 L_Round.
Open Scope R_scope.
Notation rdx := Zaux.radix2.
Notation bp := (bpow Zaux.radix2).
Notation fmt := (generic_format Zaux.radix2 (FLT_exp (-1074) 53)).

Lemma bp_pow n : bp (Z.of_nat n) = 2 ^ n.
Proof. rewrite <- IZR_Zpower by lia. rewrite pow_IZR. reflexivity. Qed.
Lemma bp_inv n : bp (- Z.of_nat n) = / 2 ^ n.
Proof. rewrite bpow_opp, bp_pow; reflexivity. Qed.
Lemma u64_bp : u64 = / 2 * bp (-53 + 1).
Proof.
  unfold u64. change (-53 + 1)%Z with (- Z.of_nat 52)%Z. rewrite bp_inv. change (2 ^ 53) with (2 * 2 ^ 52). rewrite Rinv_mult. reflexivity.
Qed.
Lemma fmt_bp e : (-1074 <= e)%Z -> fmt (bp e).
Proof. intros H. apply generic_format_bpow. unfold FLT_exp. lia. Qed.
Lemma dval_fmt (x : double) : fmt (B2R x).
Proof. apply (generic_format_B2R 53 1024). Qed.

Ltac foldn B :=
  repeat match type of B with context [round _ (SpecFloat.fexp 53 1024) (round_mode mode_NE) ?x] =>
    change (round rdx (SpecFloat.fexp 53 1024) (round_mode mode_NE) x) with (nearest x) in B end.
(** A number that is 0 or of size between 2^lo and 2^hi; s: it is not negative. *)
Definition rg : Type := (Z * Z * bool)%type.
Definition inrg (g : rg) (x : R) : Prop :=
  let '(lo, hi, s) := g in (x = 0 \/ bp lo <= Rabs x) /\ Rabs x <= bp hi /\ (s = true -> 0 <= x).

Lemma nearest_le h r : (-1074 <= h)%Z -> Rabs r <= bp h -> Rabs (nearest r) <= bp h.
Proof. intros H K. apply abs_round_le_generic; auto with typeclass_instances; try apply fmt_bp; auto. Qed.
Lemma nearest_ge l r : (-1074 <= l)%Z -> bp l <= Rabs r -> bp l <= Rabs (nearest r).
Proof. intros H K. apply abs_round_ge_generic; auto with typeclass_instances; try apply fmt_bp; auto. Qed.
Lemma nearest_0 : nearest 0 = 0.
Proof. apply round_0; auto with typeclass_instances. Qed.
Lemma nearest_pos r : 0 <= r -> 0 <= nearest r.
Proof.
  intros H. rewrite <- nearest_0. apply round_le; auto with typeclass_instances.
Qed.
Lemma bp_lt_1024 h r : (h <= 1023)%Z -> Rabs r <= bp h -> Rabs r < bp 1024.
Proof. intros H K. eapply Rle_lt_trans; [exact K|]. apply bpow_lt; lia. Qed.

Lemma nearest_near r : (r = 0 \/ bp (-1022) <= Rabs r) -> near u64 r (nearest r).
Proof.
  unfold near. intros [->|H].
  - rewrite nearest_0, Rminus_0_r, Rabs_R0. lra.
  - rewrite u64_bp. apply (relative_error_N_FLT rdx (-1074) 53 eq_refl). exact H.
Qed.
Lemma nearest_rg lo hi s r : (-1074 <= lo)%Z -> (-1074 <= hi)%Z -> inrg (lo, hi, s) r -> inrg (lo, hi, s) (nearest r).
Proof.
  intros Hl Hh (A & B & C). repeat split.
  - destruct A as [->|A]; [left; apply nearest_0|right; apply nearest_ge; auto].
  - apply nearest_le; auto.
  - intros E. apply nearest_pos; auto.
Qed.
(** The nearest double of a sum of doubles: never an underflow. *)
Lemma nearest_sum_near x y : fmt x -> fmt y -> near u64 (x + y) (nearest (x + y)).
Proof.
  intros Fx Fy.
  destruct (FLT_plus_error_N_ex rdx (-1074) 53 (fun z => negb (Z.even z)) x y Fx Fy) as (eps & E & R).
  unfold near, nearest. change ZnearestE with (Znearest (fun z => negb (Z.even z))). rewrite R.
  replace ((x + y) * (1 + eps) - (x + y)) with (eps * (x + y)) by ring. rewrite Rabs_mult.
  apply Rmult_le_compat_r; [apply Rabs_pos|]. eapply Rle_trans; [exact E|].
  eapply Rle_trans; [apply u_rod1pu_ro_le_u_ro|]. unfold u_ro. rewrite u64_bp. apply Rle_refl.
Qed.
Lemma sum_rg lo1 hi1 lo2 hi2 x y : fmt x -> fmt y -> inrg (lo1, hi1, false) x -> inrg (lo2, hi2, false) y ->
  (-1074 <= Z.max hi1 hi2 + 1)%Z -> inrg (Z.min lo1 lo2 - 53, Z.max hi1 hi2 + 1, false)%Z (nearest (x + y)).
Proof.
  intros Fx Fy (A & B & _) (A' & B' & _) H. repeat split; [| |discriminate].
  - destruct (Req_dec (nearest (x + y)) 0) as [Z|N]; [left; auto|right].
    apply (round_FLT_plus_ge' rdx ZnearestE (-1074) 53 x y _ Fx Fy); auto.
    + intros Nx. destruct A as [A|A]; [contradiction|]. eapply Rle_trans; [|exact A]. apply bpow_le; lia.
    + intros _ Ny. destruct A' as [A'|A']; [contradiction|]. eapply Rle_trans; [|exact A']. apply bpow_le; lia.
  - apply nearest_le; auto. eapply Rle_trans; [apply Rabs_triang|]. rewrite bpow_plus. change (bp 1) with 2.
    assert (bp hi1 <= bp (Z.max hi1 hi2)) by (apply bpow_le; lia). assert (bp hi2 <= bp (Z.max hi1 hi2)) by (apply bpow_le; lia). lra.
Qed.
Lemma sum_pos_rg lo1 hi1 lo2 hi2 x y : inrg (lo1, hi1, true) x -> inrg (lo2, hi2, true) y ->
  inrg (Z.min lo1 lo2, Z.max hi1 hi2 + 1, true)%Z (x + y).
Proof.
  intros (A & B & C) (A' & B' & C'). specialize (C eq_refl). specialize (C' eq_refl). repeat split.
  - destruct A as [->|A]; [rewrite Rplus_0_l; destruct A' as [A'|A']; [left; auto|right]|right].
    + eapply Rle_trans; [|exact A']. apply bpow_le; lia.
    + apply Rle_trans with (Rabs x); [eapply Rle_trans; [|exact A]; apply bpow_le; lia|]. rewrite !Rabs_right; lra.
  - eapply Rle_trans; [apply Rabs_triang|]. rewrite bpow_plus. change (bp 1) with 2.
    assert (bp hi1 <= bp (Z.max hi1 hi2)) by (apply bpow_le; lia). assert (bp hi2 <= bp (Z.max hi1 hi2)) by (apply bpow_le; lia). lra.
  - intros _; lra.
Qed.
Lemma mul_rg lo1 hi1 s1 lo2 hi2 s2 x y : inrg (lo1, hi1, s1) x -> inrg (lo2, hi2, s2) y ->
  inrg (lo1 + lo2, hi1 + hi2, s1 && s2)%Z (x * y).
Proof.
  intros (A & B & C) (A' & B' & C'). repeat split.
  - destruct A as [->|A]; [left; ring|]. destruct A' as [->|A']; [left; ring|right].
    rewrite bpow_plus, Rabs_mult. apply Rmult_le_compat; auto; apply bpow_ge_0.
  - rewrite bpow_plus, Rabs_mult. apply Rmult_le_compat; auto; apply Rabs_pos.
  - intros E. apply andb_prop in E as (E1 & E2). apply Rmult_le_pos; auto.
Qed.
Lemma inv_rg lo hi s x : x <> 0 -> inrg (lo, hi, s) x -> inrg (- hi, - lo, s)%Z (/ x).
Proof.
  intros N (A & B & C). destruct A as [A|A]; [contradiction|]. pose proof (Rabs_pos_lt x N). repeat split.
  - right. rewrite bpow_opp, Rabs_inv. apply Rinv_le_contravar; auto.
  - rewrite bpow_opp, Rabs_inv. apply Rinv_le_contravar; auto. apply bpow_gt_0.
  - intros E. left. apply Rinv_0_lt_compat. destruct (C E); auto. congruence.
Qed.
Lemma sqrt_rg lo hi s x : 0 <= x -> inrg (lo, hi, s) x -> inrg (lo / 2, (hi + 1) / 2, true)%Z (sqrt x).
Proof.
  intros P (A & B & C). rewrite (Rabs_right x) in * by lra. pose proof (sqrt_pos x). repeat split; auto.
  - destruct A as [->|A]; [left; apply sqrt_0|right]. rewrite Rabs_right by lra.
    apply Rsqr_incr_0_var; auto. rewrite Rsqr_sqrt by auto. unfold Rsqr. rewrite <- bpow_plus.
    eapply Rle_trans; [|exact A]. apply bpow_le. pose proof (Z.div_mod lo 2 ltac:(lia)). pose proof (Z.mod_pos_bound lo 2 ltac:(lia)). lia.
  - rewrite Rabs_right by lra. apply Rsqr_incr_0_var; [|apply bpow_ge_0]. rewrite Rsqr_sqrt by auto. unfold Rsqr. rewrite <- bpow_plus.
    eapply Rle_trans; [exact B|]. apply bpow_le. pose proof (Z.div_mod (hi + 1) 2 ltac:(lia)). pose proof (Z.mod_pos_bound (hi + 1) 2 ltac:(lia)). lia.
Qed.
Lemma bp_n z n : bp (Z.of_nat n * z) = bp z ^ n.
Proof.
  induction n as [|n IH]; [reflexivity|]. replace (Z.of_nat (S n) * z)%Z with (z + Z.of_nat n * z)%Z by lia.
  rewrite bpow_plus, IH. reflexivity.
Qed.
Lemma pow_rg lo hi s x n : (0 < n)%nat -> inrg (lo, hi, s) x -> inrg (Z.of_nat n * lo, Z.of_nat n * hi, s || Nat.even n)%Z (x ^ n).
Proof.
  intros Hn (A & B & C). repeat split.
  - destruct A as [->|A]; [left; apply pow_ne_zero; lia|right]. rewrite bp_n, <- RPow_abs. apply pow_incr. split; auto. apply bpow_ge_0.
  - rewrite bp_n, <- RPow_abs. apply pow_incr. split; auto. apply Rabs_pos.
  - intros E. apply orb_prop in E as [E|E]; [apply pow_le; auto|]. apply Nat.even_spec in E as (k & ->).
    rewrite pow_mult. apply pow_le. apply pow2_ge_0.
Qed.
Lemma bp_exp z : bp z = exp (IZR z * ln 2).
Proof.
  assert (P : forall n, bp (Z.of_nat n) = exp (IZR (Z.of_nat n) * ln 2)).
  { intros n. rewrite bp_pow, <- INR_IZR_INZ. rewrite <- (exp_ln (2 ^ n)) by (apply pow_lt; lra). f_equal. apply ln_pow; lra. }
  destruct (Z_le_dec 0 z) as [H|H].
  - rewrite <- (Z2Nat.id z H). apply P.
  - replace z with (- Z.of_nat (Z.to_nat (- z)))%Z by lia. rewrite bpow_opp, P, <- exp_Ropp. f_equal. rewrite opp_IZR. ring.
Qed.
Lemma Rpower_rg lo hi s x lo' hi' s' y t : 0 < x -> inrg (lo, hi, s) x -> inrg (lo', hi', s') y ->
  t = (Z.max (Z.abs lo) (Z.abs hi) * 2 ^ Z.max 0 hi')%Z -> inrg (- t, t, true)%Z (Rpower x y).
Proof.
  intros P (A & B & C) (_ & B' & _) ->. rewrite Rabs_right in * by lra. destruct A as [A|A]; [lra|].
  set (m := Z.max (Z.abs lo) (Z.abs hi)). set (k := (2 ^ Z.max 0 hi')%Z).
  assert (K0 : (0 <= k)%Z) by (unfold k; apply Z.pow_nonneg; lia).
  assert (L2 : 0 < ln 2) by (rewrite <- ln_1; apply ln_increasing; lra).
  assert (LX : Rabs (ln x) <= IZR m * ln 2).
  { assert (bp (- m) <= x <= bp m).
    { split; [eapply Rle_trans; [|exact A]|eapply Rle_trans; [exact B|]]; apply bpow_le; unfold m; lia. }
    rewrite !bp_exp in H. apply Rabs_le. rewrite opp_IZR in H. split.
    - rewrite <- (ln_exp (- (IZR m * ln 2))). destruct (Req_dec (exp (- (IZR m * ln 2))) x) as [<-|N]; [lra|].
      left. apply ln_increasing; [apply exp_pos|]. replace (- (IZR m * ln 2)) with (- IZR m * ln 2) in * by ring. lra.
    - rewrite <- (ln_exp (IZR m * ln 2)). destruct (Req_dec (exp (IZR m * ln 2)) x) as [<-|N]; [lra|]. left. apply ln_increasing; lra. }
  assert (Y : Rabs y <= IZR k).
  { eapply Rle_trans; [exact B'|]. unfold k. change 2%Z with (Zaux.radix_val rdx). rewrite IZR_Zpower by lia. apply bpow_le; lia. }
  assert (E : Rabs (y * ln x) <= IZR (m * k) * ln 2).
  { rewrite Rabs_mult, mult_IZR. replace (IZR m * IZR k * ln 2) with (IZR k * (IZR m * ln 2)) by ring.
    apply Rmult_le_compat; auto; apply Rabs_pos. }
  apply rabs_le in E. unfold Rpower. pose proof (exp_pos (y * ln x)).
  assert (MONO : forall a b, a <= b -> exp a <= exp b) by (intros a b [H0 | H0]; [left; apply exp_increasing; auto|rewrite H0; lra]).
  repeat split; try (rewrite Rabs_right by lra); try lra.
  - right. rewrite bp_exp. apply MONO. rewrite opp_IZR. lra.
  - rewrite bp_exp. apply MONO. lra.
Qed.
Lemma near_rg u lo hi s r y : 0 <= u <= / 2 -> near u r y -> inrg (lo, hi, s) r -> inrg (lo - 1, hi + 1, s)%Z y.
Proof.
  unfold near. intros Hu N (A & B & C).
  assert (L : Rabs r / 2 <= Rabs y <= 2 * Rabs r).
  { pose proof (Rabs_pos r).
    assert (u * Rabs r <= / 2 * Rabs r) by (apply Rmult_le_compat_r; lra).
    pose proof (Rabs_triang (y - r) r). pose proof (Rabs_triang (r - y) y).
    rewrite (Rabs_minus_sym r y) in *. replace (y - r + r) with y in * by ring. replace (r - y + y) with r in * by ring. lra. }
  cbn [inrg]. unfold Z.sub. rewrite !bpow_plus. change (bp (- (1))) with (/ 2). change (bp 1) with 2. repeat split.
  - destruct A as [->|A]; [left|right; lra]. rewrite Rabs_R0 in L. pose proof (Rabs_pos y).
    destruct (Req_dec y 0) as [|Ny]; auto. pose proof (Rabs_pos_lt y Ny). lra.
  - lra.
  - intros E. specialize (C E). rewrite (Rabs_right r) in N by lra. apply rabs_le in N.
    assert (u * r <= / 2 * r) by (apply Rmult_le_compat_r; lra). lra.
Qed.

(** ** A double-precision run is a run of M_Round.v *)
Section Sound.
Variables (u : R) (M : machine).
Hypothesis Hu : u64 <= u <= / 1000000.
Hypothesis HL : reads_literals M.
Hypothesis HM : library_accurate u M.
Lemma u64_pos : 0 < u64.
Proof. apply Rinv_0_lt_compat, pow_lt; lra. Qed.
Lemma near_u r y : near u64 r y -> near u r y.
Proof. unfold near; intros H. eapply Rle_trans; [exact H|]. apply Rmult_le_compat_r; [apply Rabs_pos|lra]. Qed.

Definition okd (g : rg) (d : double) : Prop := dfinite d /\ inrg g (dval d).
(** The value of e, if the operations are in their domains, is a finite number in the range g. *)
Definition tr (G : list rg) (e : expr) (g : rg) : Prop :=
  forall env, Forall2 okd G env -> exists y, fev u (map dval env) e y /\
    forall r, y = Some r -> okd g (dev M env e) /\ dval (dev M env e) = r.
Definition ptr (G : list rg) (p : prog) : Prop :=
  forall env, Forall2 okd G env -> exists ys, fprog u p (map dval env) ys /\
    forall rs, ys = Some rs -> Forall dfinite (drun M p env) /\ map dval (drun M p env) = rs.

Lemma tr_var G n g : nth n G (0, 0, true)%Z = g -> tr G (EVar n) g.
Proof.
  intros <- env E. exists (Some (nth n (map dval env) 0)). split; [reflexivity|]. intros r [= <-].
  cbn [dev]. rewrite <- (map_nth dval env (B754_zero false) n : nth n (map dval env) 0 = dval _). split; auto.
  clear -E. revert n. induction E as [|g d G env K E IH]; intros [|n]; cbn [nth]; auto.
  - split; [reflexivity|]. cbv [dval B2R inrg]. repeat split; try lra; auto. rewrite Rabs_R0; apply bpow_ge_0.
  - split; [reflexivity|]. cbv [dval B2R inrg]. repeat split; try lra; auto. rewrite Rabs_R0; apply bpow_ge_0.
Qed.
Lemma int_fmt z : (Z.abs z <= 2 ^ 53)%Z -> fmt (IZR z).
Proof.
  intros H. destruct (Z.eq_dec (Z.abs z) (2 ^ 53)) as [E|E].
  - assert (P : fmt (bp 53)) by (apply fmt_bp; lia). destruct (Z_le_dec 0 z).
    + replace z with (2 ^ 53)%Z by lia. exact P.
    + replace z with (- 2 ^ 53)%Z by lia. rewrite opp_IZR. apply generic_format_opp. exact P.
  - apply generic_format_FLT. exists (Float rdx z 0); [unfold F2R; cbn; ring|cbn; lia|cbn; lia].
Qed.
Lemma tr_lit G r lo hi s : inrg (lo, hi, s) r -> ((-1022 <=? lo) && (-1022 <=? hi) && (hi <=? 1023) = true)%Z -> tr G (ELit r) (lo, hi, s).
Proof.
  intros I C. apply andb_prop in C as (C & C3). apply andb_prop in C as (C1 & C2). apply Z.leb_le in C1, C2, C3.
  intros env E. exists (Some (nearest r)).
  assert (Rr : Rabs r <= 2 ^ 1023).
  { destruct I as (_ & B & _). eapply Rle_trans; [exact B|]. rewrite <- (bp_pow 1023). apply bpow_le. lia. }
  destruct (HL r Rr) as (F & V). split.
  - exists (nearest r); split; auto. split.
    + apply near_u, nearest_near. destruct I as ([A|A] & _); [left; auto|right]. eapply Rle_trans; [|exact A]. apply bpow_le; lia.
    + intros (z & Z & ->). apply round_generic; auto with typeclass_instances. apply int_fmt; auto.
  - intros r' [= <-]. cbn [dev]. split; auto. split; auto. unfold dval in *. rewrite V. apply nearest_rg; auto; lia.
Qed.
Ltac chk C := repeat (apply andb_prop in C; let D := fresh "D" in destruct C as (C & D); rewrite ?Z.leb_le, ?Nat.ltb_lt in D); rewrite ?Z.leb_le, ?Nat.ltb_lt in C.
Ltac res2 H1 H2 env E :=
  destruct (H1 env E) as (y1 & F1 & K1); destruct (H2 env E) as (y2 & F2 & K2);
  destruct y1 as [x1|]; [|exists None; split; [exists None, y2; auto|discriminate]];
  destruct y2 as [x2|]; [|exists None; split; [exists (Some x1), None; auto|discriminate]];
  destruct (K1 x1 eq_refl) as ((A1 & I1) & V1); destruct (K2 x2 eq_refl) as ((A2 & I2) & V2).

(** An operation that rounds to the nearest double. *)
Lemma fin_nearest lo hi s r : (-1074 <= hi <= 1023)%Z -> inrg (lo, hi, s) r -> Rlt_bool (Rabs (nearest r)) (bp 1024) = true.
Proof. intros H (_ & B & _). apply Rlt_bool_true. eapply (bp_lt_1024 hi); [lia|]. apply nearest_le; auto. lia. Qed.
Lemma fin_nearest' lo hi s r : (-1074 <= hi <= 1023)%Z -> inrg (lo, hi, s) (nearest r) -> Rlt_bool (Rabs (nearest r)) (bp 1024) = true.
Proof. intros H (_ & B & _). apply Rlt_bool_true. eapply (bp_lt_1024 hi); [lia|]. auto. Qed.

Lemma tr_add G e1 e2 lo1 hi1 lo2 hi2 : tr G e1 (lo1, hi1, true) -> tr G e2 (lo2, hi2, true) ->
  ((-1022 <=? Z.min lo1 lo2) && (-1022 <=? Z.max hi1 hi2) && (Z.max hi1 hi2 + 1 <=? 1023) = true)%Z ->
  tr G (EOp2 OAdd e1 e2) (Z.min lo1 lo2, Z.max hi1 hi2 + 1, true)%Z.
Proof.
  intros H1 H2 C env E. chk C. res2 H1 H2 env E. subst x1 x2.
  set (a := dev M env e1) in *. set (b := dev M env e2) in *.
  pose proof (sum_pos_rg _ _ _ _ _ _ I1 I2) as I.
  pose proof (Bplus_correct 53 1024 _ _ mode_NE a b A1 A2) as B. fold (dval a) (dval b) in B.
  foldn B.
  erewrite fin_nearest in B; [|idtac|exact I]; [|lia]. destruct B as (B1 & B2 & _).
  exists (Some (nearest (dval a + dval b))). split.
  - exists (Some (dval a)), (Some (dval b)). repeat split; auto. left. split; [exact Logic.I|]. eexists; split; [reflexivity|].
    apply near_u, nearest_sum_near; apply dval_fmt.
  - intros r [= <-]. cbn [dev dsem2]. fold a b. split; [split; [exact B2|]|exact B1]. unfold dval at 1. rewrite B1. apply nearest_rg; auto; lia.
Qed.
Lemma inrg_any lo hi s x : inrg (lo, hi, s) x -> inrg (lo, hi, false) x.
Proof. intros (A & B & C). repeat split; auto. discriminate. Qed.
Lemma tr_add_any G e1 e2 lo1 hi1 s1 lo2 hi2 s2 : tr G e1 (lo1, hi1, s1) -> tr G e2 (lo2, hi2, s2) ->
  ((-1022 <=? Z.max hi1 hi2) && (Z.max hi1 hi2 + 1 <=? 1023) = true)%Z ->
  tr G (EOp2 OAdd e1 e2) (Z.min lo1 lo2 - 53, Z.max hi1 hi2 + 1, false)%Z.
Proof.
  intros H1 H2 C env E. chk C. res2 H1 H2 env E. subst x1 x2.
  set (a := dev M env e1) in *. set (b := dev M env e2) in *.
  pose proof (sum_rg _ _ _ _ _ _ (dval_fmt a) (dval_fmt b) (inrg_any _ _ _ _ I1) (inrg_any _ _ _ _ I2) ltac:(lia)) as I.
  pose proof (Bplus_correct 53 1024 _ _ mode_NE a b A1 A2) as B. fold (dval a) (dval b) in B.
  foldn B.
  erewrite fin_nearest' in B; [|idtac|exact I]; [|lia]. destruct B as (B1 & B2 & _).
  exists (Some (nearest (dval a + dval b))). split.
  - exists (Some (dval a)), (Some (dval b)). repeat split; auto. left. split; [exact Logic.I|]. eexists; split; [reflexivity|].
    apply near_u, nearest_sum_near; apply dval_fmt.
  - intros r [= <-]. cbn [dev dsem2]. fold a b. split; [split; [exact B2|]|exact B1]. unfold dval at 1. rewrite B1. exact I.
Qed.
Lemma inrg_opp lo hi s x : inrg (lo, hi, s) x -> inrg (lo, hi, false) (- x).
Proof. intros (A & B & _). rewrite <- Rabs_Ropp in A, B. repeat split; auto; [destruct A as [->|A]; [left; ring|right; auto]|discriminate]. Qed.
Lemma tr_sub G e1 e2 lo1 hi1 s1 lo2 hi2 s2 : tr G e1 (lo1, hi1, s1) -> tr G e2 (lo2, hi2, s2) ->
  ((-1022 <=? Z.max hi1 hi2) && (Z.max hi1 hi2 + 1 <=? 1023) = true)%Z ->
  tr G (EOp2 OSub e1 e2) (Z.min lo1 lo2 - 53, if s1 && s2 then Z.max hi1 hi2 else Z.max hi1 hi2 + 1, false)%Z.
Proof.
  intros H1 H2 C env E. chk C. res2 H1 H2 env E. subst x1 x2.
  set (a := dev M env e1) in *. set (b := dev M env e2) in *.
  assert (Fb : fmt (- dval b)) by (apply generic_format_opp, dval_fmt).
  pose proof (sum_rg _ _ _ _ _ _ (dval_fmt a) Fb (inrg_any _ _ _ _ I1) (inrg_opp _ _ _ _ I2) ltac:(lia)) as I.
  pose proof (Bminus_correct 53 1024 _ _ mode_NE a b A1 A2) as B. fold (dval a) (dval b) in B.
  change (dval a + - dval b) with (dval a - dval b) in I.
  foldn B.
  erewrite fin_nearest' in B; [|idtac|exact I]; [|lia]. destruct B as (B1 & B2 & _).
  assert (J : inrg (Z.min lo1 lo2 - 53, if s1 && s2 then Z.max hi1 hi2 else Z.max hi1 hi2 + 1, false)%Z (nearest (dval a - dval b))).
  { destruct (s1 && s2)%bool eqn:Es; [|exact I]. apply andb_prop in Es as (-> & ->).
    destruct I as (Ia & _ & _). repeat split; auto; [|discriminate]. apply nearest_le; [lia|].
    destruct I1 as (_ & U1 & P1), I2 as (_ & U2 & P2). specialize (P1 eq_refl). specialize (P2 eq_refl).
    rewrite (Rabs_right (dval a)) in U1 by lra. rewrite (Rabs_right (dval b)) in U2 by lra.
    assert (bp hi1 <= bp (Z.max hi1 hi2)) by (apply bpow_le; lia). assert (bp hi2 <= bp (Z.max hi1 hi2)) by (apply bpow_le; lia).
    apply Rabs_le. lra. }
  exists (Some (nearest (dval a - dval b))). split.
  - exists (Some (dval a)), (Some (dval b)). repeat split; auto. left. split; [exact Logic.I|]. eexists; split; [reflexivity|].
    apply near_u. apply (nearest_sum_near (dval a) (- dval b)); auto. apply dval_fmt.
  - intros r [= <-]. cbn [dev dsem2]. fold a b. split; [split; [exact B2|]|exact B1]. unfold dval at 1. rewrite B1. exact J.
Qed.
Lemma rg_normal lo hi s r : (-1022 <= lo)%Z -> inrg (lo, hi, s) r -> r = 0 \/ bp (-1022) <= Rabs r.
Proof. intros H ([A|A] & _); [left; auto|right]. eapply Rle_trans; [|exact A]. apply bpow_le; lia. Qed.
Lemma tr_mul G e1 e2 lo1 hi1 s1 lo2 hi2 s2 : tr G e1 (lo1, hi1, s1) -> tr G e2 (lo2, hi2, s2) ->
  ((-1022 <=? lo1 + lo2) && (-1022 <=? hi1 + hi2) && (hi1 + hi2 <=? 1023) = true)%Z ->
  tr G (EOp2 OMul e1 e2) (lo1 + lo2, hi1 + hi2, s1 && s2)%Z.
Proof.
  intros H1 H2 C env E. chk C. res2 H1 H2 env E. subst x1 x2.
  set (a := dev M env e1) in *. set (b := dev M env e2) in *.
  pose proof (mul_rg _ _ _ _ _ _ _ _ I1 I2) as I.
  pose proof (Bmult_correct 53 1024 _ _ mode_NE a b) as B. fold (dval a) (dval b) in B.
  foldn B.
  erewrite fin_nearest in B; [|idtac|exact I]; [|lia]. destruct B as (B1 & B2 & _).
  unfold dfinite in A1, A2. rewrite A1, A2 in B2.
  exists (Some (nearest (dval a * dval b))). split.
  - exists (Some (dval a)), (Some (dval b)). repeat split; auto. left. split; [exact Logic.I|]. eexists; split; [reflexivity|].
    apply near_u, nearest_near. eapply rg_normal; [|exact I]; lia.
  - intros r [= <-]. cbn [dev dsem2]. fold a b. split; [split; [exact B2|]|exact B1]. unfold dval at 1. rewrite B1. apply nearest_rg; auto; lia.
Qed.
Lemma tr_div o G e1 e2 lo1 hi1 s1 lo2 hi2 s2 : o = ODiv \/ o = ODivN -> tr G e1 (lo1, hi1, s1) -> tr G e2 (lo2, hi2, s2) ->
  ((-1022 <=? lo1 - hi2) && (-1022 <=? hi1 - lo2) && (hi1 - lo2 <=? 1023) = true)%Z ->
  tr G (EOp2 o e1 e2) (lo1 - hi2, hi1 - lo2, s1 && s2)%Z.
Proof.
  intros Ho H1 H2 C env E. chk C. res2 H1 H2 env E. subst x1 x2.
  set (a := dev M env e1) in *. set (b := dev M env e2) in *.
  destruct (Req_dec (dval b) 0) as [Z|N].
  { exists None. split; [|discriminate]. exists (Some (dval a)), (Some (dval b)). repeat split; auto. right.
    split; auto. destruct Ho as [-> | ->]; simpl; auto. }
  pose proof (mul_rg _ _ _ _ _ _ _ _ I1 (inv_rg _ _ _ _ N I2)) as I. fold (dval a / dval b) in I.
  change (lo1 + - hi2)%Z with (lo1 - hi2)%Z in I. change (hi1 + - lo2)%Z with (hi1 - lo2)%Z in I.
  pose proof (Bdiv_correct 53 1024 _ _ mode_NE a b N) as B. fold (dval a) (dval b) in B.
  foldn B.
  erewrite fin_nearest in B; [|idtac|exact I]; [|lia]. destruct B as (B1 & B2 & _).
  unfold dfinite in A1, A2. rewrite A1 in B2.
  exists (Some (nearest (dval a / dval b))). split.
  - exists (Some (dval a)), (Some (dval b)). repeat split; auto. left.
    split; [destruct Ho as [-> | ->]; exact N|]. eexists; split; [reflexivity|].
    assert (near u (dval a / dval b) (nearest (dval a / dval b))) by (apply near_u, nearest_near; eapply rg_normal; [|exact I]; lia).
    destruct Ho as [-> | ->]; auto.
  - intros r [= <-]. cbn [dev]. fold a b. replace (dsem2 M o a b) with (Bdiv mode_NE a b) by (destruct Ho as [-> | ->]; reflexivity).
    split; [split; [exact B2|]|exact B1]. unfold dval at 1. rewrite B1. apply nearest_rg; auto; lia.
Qed.
Lemma tr_max G e1 e2 lo1 hi1 s1 lo2 hi2 s2 : tr G e1 (lo1, hi1, s1) -> tr G e2 (lo2, hi2, s2) ->
  tr G (EOp2 OMaximum e1 e2) (Z.min lo1 lo2, Z.max hi1 hi2, s1 && s2)%Z.
Proof.
  intros H1 H2 env E. res2 H1 H2 env E. subst x1 x2.
  set (a := dev M env e1) in *. set (b := dev M env e2) in *.
  assert (W : forall lo hi s x, inrg (lo, hi, s) x -> (Z.min lo1 lo2 <= lo)%Z -> (hi <= Z.max hi1 hi2)%Z -> (s1 && s2 = true -> s = true) ->
     inrg (Z.min lo1 lo2, Z.max hi1 hi2, s1 && s2)%Z x).
  { intros lo hi s x (A & B & C) L1 L2 L3. repeat split.
    - destruct A as [A|A]; auto. right. eapply Rle_trans; [|exact A]. apply bpow_le; lia.
    - eapply Rle_trans; [exact B|]. apply bpow_le; lia.
    - auto. }
  exists (Some (Rmax (dval a) (dval b))). split.
  - exists (Some (dval a)), (Some (dval b)). repeat split; auto. left. split; [exact Logic.I|]. eexists; split; reflexivity.
  - intros r [= <-]. cbn [dev dsem2]. fold a b. unfold dmax. rewrite (Bleb_correct 53 1024 a b A1 A2). fold (dval a) (dval b).
    case Rle_bool_spec; intros Hle.
    + split; [split; auto|rewrite Rmax_right; auto]. eapply W; eauto; try lia. intros Q; apply andb_prop in Q; tauto.
    + split; [split; auto|rewrite Rmax_left; lra]. eapply W; eauto; try lia. intros Q; apply andb_prop in Q; tauto.
Qed.
Lemma in_range_rg lo hi s r : (-1022 <= lo)%Z -> (hi <= 1022)%Z -> inrg (lo, hi, s) r -> in_range r.
Proof.
  intros L H ([A|A] & B & _); [left; auto|right]. split.
  - eapply Rle_trans; [|exact A]. rewrite <- (bp_inv 1022). apply bpow_le; lia.
  - eapply Rle_trans; [exact B|]. change (2 ^ 1023) with (2 * 2 ^ 1022). rewrite <- (bp_pow 1022).
    replace (2 * bp (Z.of_nat 1022) / 2) with (bp (Z.of_nat 1022)) by field. apply bpow_le; lia.
Qed.
Lemma tr_pow2 o G e1 e2 lo1 hi1 s1 lo2 hi2 s2 t : o = OPow \/ o = OPowN -> tr G e1 (lo1, hi1, s1) -> tr G e2 (lo2, hi2, s2) ->
  t = (Z.max (Z.abs lo1) (Z.abs hi1) * 2 ^ Z.max 0 hi2)%Z -> (t <=? 1022 = true)%Z ->
  tr G (EOp2 o e1 e2) (- t - 1, t + 1, true)%Z.
Proof.
  intros Ho H1 H2 Et C env E. apply Z.leb_le in C. res2 H1 H2 env E. subst x1 x2.
  set (a := dev M env e1) in *. set (b := dev M env e2) in *.
  destruct (Rlt_dec 0 (dval a)) as [P|N].
  2:{ exists None. split; [|discriminate]. exists (Some (dval a)), (Some (dval b)). repeat split; auto. right.
    split; auto. destruct Ho as [-> | ->]; simpl; auto. }
  pose proof (Rpower_rg _ _ _ _ _ _ _ _ t P I1 I2 Et) as I.
  destruct HM as (_ & HM2).
  assert (DF : def2 o (dval a) (dval b)) by (destruct Ho as [-> | ->]; exact P).
  assert (RS : rsem2 o (dval a) (dval b) = Rpower (dval a) (dval b)) by (destruct Ho as [-> | ->]; reflexivity).
  destruct (HM2 o a b A1 A2 DF) as (F & Nr).
  { rewrite RS. eapply in_range_rg; [| |exact I]; lia. }
  rewrite RS in Nr. exists (Some (dval (libm2 M o a b))). split.
  - exists (Some (dval a)), (Some (dval b)). repeat split; auto. left. split; auto. eexists; split; [reflexivity|].
    destruct Ho as [-> | ->]; exact Nr.
  - intros r [= <-]. cbn [dev]. fold a b. replace (dsem2 M o a b) with (libm2 M o a b) by (destruct Ho as [-> | ->]; reflexivity).
    split; [split; auto|auto]. eapply near_rg; [|exact Nr|exact I]. pose proof u64_pos. lra.
Qed.
Ltac res1 H1 env E :=
  destruct (H1 env E) as (y1 & F1 & K1);
  destruct y1 as [x1|]; [|exists None; split; [exists None; auto|discriminate]];
  destruct (K1 x1 eq_refl) as ((A1 & I1) & V1).
Lemma tr_neg G e lo hi s : tr G e (lo, hi, s) -> tr G (EOp1 ONeg e) (lo, hi, false).
Proof.
  intros H1 env E. res1 H1 env E. subst x1. set (a := dev M env e) in *.
  exists (Some (- dval a)). split.
  - exists (Some (dval a)). split; auto. left. split; [exact Logic.I|]. eexists; split; reflexivity.
  - intros r [= <-]. cbn [dev dsem1]. fold a. unfold dval, okd, dfinite. rewrite B2R_Bopp, is_finite_Bopp. split; auto. split; auto.
    unfold dval. rewrite B2R_Bopp. eapply inrg_opp; eauto.
Qed.
Lemma tr_sqrt G e lo hi s : tr G e (lo, hi, s) -> ((-1022 <=? lo / 2) && (-1022 <=? (hi + 1) / 2) && ((hi + 1) / 2 <=? 1023) = true)%Z ->
  tr G (EOp1 OSqrt e) (lo / 2, (hi + 1) / 2, true)%Z.
Proof.
  intros H1 C env E. chk C. res1 H1 env E. subst x1. set (a := dev M env e) in *.
  destruct (Rle_dec 0 (dval a)) as [P|N].
  2:{ exists None. split; [|discriminate]. exists (Some (dval a)). split; auto. }
  pose proof (sqrt_rg _ _ _ _ P I1) as I.
  pose proof (Bsqrt_correct 53 1024 _ _ mode_NE a) as (B1 & B2 & _). fold (dval a) in B1.
  change (B2R (Bsqrt mode_NE a) = nearest (sqrt (dval a))) in B1.
  assert (Fs : is_finite (Bsqrt mode_NE a) = true).
  { rewrite B2. unfold dfinite, dval in A1, P. destruct a as [s0| | |s0 mx ex Hx]; try discriminate; auto.
    destruct s0; auto. exfalso. cbn in P. unfold F2R in P. cbn in P.
    assert (IZR (Z.neg mx) * bp ex < 0); [|lra]. pose proof (bpow_gt_0 rdx ex). assert (IZR (Z.neg mx) < 0) by (apply IZR_lt; lia). nra. }
  exists (Some (nearest (sqrt (dval a)))). split.
  - exists (Some (dval a)). split; auto. left. split; auto. eexists; split; [reflexivity|].
    apply near_u, nearest_near. eapply rg_normal; [|exact I]; lia.
  - intros r [= <-]. cbn [dev dsem1]. fold a. split; [split; auto|exact B1]. unfold dval at 1. rewrite B1. apply nearest_rg; auto; lia.
Qed.
(** A library function whose values are in a known range. *)
Lemma tr_lib o G e g lo hi s : (match o with ONeg | OSqrt => false | _ => true end = true) -> tr G e g ->
  (forall x, inrg g x -> def1 o x -> inrg (lo, hi, s) (rsem1 o x)) -> ((-1022 <=? lo) && (hi <=? 1022) = true)%Z ->
  tr G (EOp1 o e) (lo - 1, hi + 1, s)%Z.
Proof.
  intros Ho H1 HI C env E. chk C. res1 H1 env E. subst x1. set (a := dev M env e) in *.
  assert (Dec : def1 o (dval a) \/ ~ def1 o (dval a)) by apply Classical_Prop.classic.
  destruct Dec as [D'|D'].
  2:{ exists None. split; [|discriminate]. exists (Some (dval a)). split; auto. }
  destruct HM as (HM1 & _). specialize (HI _ I1 D'). destruct (HM1 o a A1 D') as (F & Nr); [eapply in_range_rg; [| |exact HI]; lia|].
  exists (Some (dval (libm1 M o a))). split.
  - exists (Some (dval a)). split; auto. left. split; auto. eexists; split; [reflexivity|]. destruct o; try discriminate; exact Nr.
  - intros r [= <-]. cbn [dev]. fold a. replace (dsem1 M o a) with (libm1 M o a) by (destruct o; try discriminate; reflexivity).
    split; [split; auto|auto]. eapply near_rg; [|exact Nr|exact HI]. pose proof u64_pos. lra.
Qed.
Lemma tr_pow1 n G e lo hi s : tr G e (lo, hi, s) ->
  ((0 <? n)%nat && (-1022 <=? Z.of_nat n * lo) && (Z.of_nat n * hi <=? 1022) = true)%Z ->
  tr G (EOp1 (OPown n) e) (Z.of_nat n * lo - 1, Z.of_nat n * hi + 1, s || Nat.even n)%Z.
Proof.
  intros H1 C. chk C. eapply tr_lib; [reflexivity|exact H1| |].
  - intros x I _. apply pow_rg; auto.
  - apply andb_true_intro. split; apply Z.leb_le; lia.
Qed.
Lemma ptr_let G e g p : tr G e g -> ptr (G ++ [g]) p -> ptr G (PLet e p).
Proof.
  intros H1 H2 env E. destruct (H1 env E) as (y & F & K). destruct y as [x|].
  - destruct (K x eq_refl) as (A & V).
    destruct (H2 (env ++ [dev M env e])) as (ys & F2 & K2); [apply Forall2_app; auto|].
    exists ys. split; [|exact K2]. exists (Some x). split; auto. rewrite map_app in F2. cbn [map] in F2. rewrite V in F2. exact F2.
  - exists None. split; [|discriminate]. exists None. auto.
Qed.
Lemma ptr_ret G es : Forall (fun e => exists g, tr G e g) es -> ptr G (PRet es).
Proof.
  intros H env E. cbn [fprog drun]. induction H as [|e es (g & K) H IH].
  - exists (Some []). split; [reflexivity|]. intros rs [= <-]. split; [constructor|reflexivity].
  - destruct IH as (z & F & Z). destruct (K env E) as (y & Fy & Y).
    exists (match y, z with Some y, Some z => Some (y :: z) | _, _ => None end). split; [exists y, z; auto|].
    intros rs. destruct y as [y|]; [|discriminate]. destruct z as [z|]; [|discriminate]. intros [= <-].
    destruct (Y y eq_refl) as ((A & _) & V). destruct (Z z eq_refl) as (A' & V'). split; [constructor; auto|cbn [map]; congruence].
Qed.
Lemma ptr_if G c e1 e2 g1 g2 p q : tr G e1 g1 -> tr G e2 g2 -> ptr G p -> ptr G q -> ptr G (PIf c e1 e2 p q).
Proof.
  intros H1 H2 Hp Hq env E.
  destruct (H1 env E) as (y1 & F1 & K1); destruct (H2 env E) as (y2 & F2 & K2).
  destruct y1 as [x1|]; [|exists None; split; [exists None, y2; auto|discriminate]].
  destruct y2 as [x2|]; [|exists None; split; [exists (Some x1), None; auto|discriminate]].
  destruct (K1 x1 eq_refl) as ((A1 & I1) & V1); destruct (K2 x2 eq_refl) as ((A2 & I2) & V2). subst x1 x2.
  assert (T : dcmp c (dev M env e1) (dev M env e2) = rcmpb c (dval (dev M env e1)) (dval (dev M env e2))).
  { destruct c; cbn [dcmp rcmpb]; [rewrite Bltb_correct by auto|rewrite Bleb_correct by auto|rewrite Beqb_correct by auto]; fold (dval (dev M env e1)) (dval (dev M env e2)).
    - unfold Rltb. case Rlt_bool_spec; intros; destruct Rlt_dec; auto; lra.
    - unfold Rleb. case Rle_bool_spec; intros; destruct Rle_dec; auto; lra.
    - unfold Reqb. case Req_bool_spec; intros; destruct Req_EM_T; auto; congruence. }
  destruct (rcmpb c (dval (dev M env e1)) (dval (dev M env e2))) eqn:B.
  - destruct (Hp env E) as (ys & F & K). exists ys. split.
    + exists (Some (dval (dev M env e1))), (Some (dval (dev M env e2))). split; auto. split; auto. rewrite B. exact F.
    + cbn [drun]. rewrite T. exact K.
  - destruct (Hq env E) as (ys & F & K). exists ys. split.
    + exists (Some (dval (dev M env e1))), (Some (dval (dev M env e2))). split; auto. split; auto. rewrite B. exact F.
    + cbn [drun]. rewrite T. exact K.
Qed.
Lemma size_rg n d : size n d -> okd (- Z.of_nat n, Z.of_nat n, true)%Z d.
Proof.
  intros (F & A & B). pose proof (Rinv_0_lt_compat (2 ^ n) ltac:(apply pow_lt; lra)). split; auto.
  cbn [inrg]. rewrite bp_pow, bp_inv, Rabs_right by lra. repeat split; auto. intros _; lra.
Qed.
Lemma size0_rg n d : size0 n d -> okd (- Z.of_nat n, Z.of_nat n, true)%Z d.
Proof.
  intros (F & [A|A]).
  - split; auto. cbn [inrg]. rewrite A, Rabs_R0. repeat split; auto; [apply bpow_ge_0|intros _; lra].
  - apply size_rg; split; auto.
Qed.
Lemma sized_rg n d : sized n d -> okd (- Z.of_nat n, Z.of_nat n, false)%Z d.
Proof.
  intros (F & [A|A]); split; auto; cbn [inrg]; rewrite bp_pow, bp_inv.
  - rewrite A, Rabs_R0. repeat split; auto; [apply pow_le; lra|discriminate].
  - repeat split; try tauto. discriminate.
Qed.
(** Porosities and other fractions. *)
Lemma frac_rg n d : size0 n d -> dval d <= 1 -> okd (- Z.of_nat n, 0, true)%Z d.
Proof.
  intros H B. destruct (size0_rg n d H) as (F & A & _ & C). split; auto. cbn [inrg]. repeat split; auto. change (bp 0) with 1.
  rewrite Rabs_right; auto. apply Rle_ge; auto.
Qed.
Lemma ptr_accurate G p env o ns : ptr G p -> Forall2 okd G env ->
  (forall ys, fprog u p (map dval env) ys -> accurate u o ns ys) -> double_accurate u o ns (drun M p env).
Proof.
  intros H E A. destruct (H env E) as (ys & F & K). pose proof (A ys F) as (rs & ys' & Ho & -> & L & R).
  destruct (K ys' eq_refl) as (Fi & V). split; auto. exists rs, ys'. rewrite V. auto.
Qed.
End Sound.
(** Literals: the nearest double exists. *)
Lemma nearest_double_is r : Rabs r <= 2 ^ 1023 ->
  let d := binary_normalize 53 1024 prec_pos prec_emax mode_NE (Ztrunc (scaled_mantissa rdx (FLT_exp (-1074) 53) (nearest r)))
             (cexp rdx (FLT_exp (-1074) 53) (nearest r)) false in dfinite d /\ dval d = nearest r.
Proof.
  intros H. set (x := nearest r).
  assert (Fx : fmt x) by (apply generic_format_round; auto with typeclass_instances).
  assert (B : Rabs x <= bp 1023) by (apply nearest_le; [lia|change (bp 1023) with (bp (Z.of_nat 1023)); rewrite bp_pow; auto]).
  set (e := cexp rdx (FLT_exp (-1074) 53) x). set (z := Ztrunc (scaled_mantissa rdx (FLT_exp (-1074) 53) x)).
  pose proof (binary_normalize_correct 53 1024 _ _ mode_NE z e false) as C. cbv zeta in C.
  assert (X : F2R (Float rdx z e) = x) by (symmetry; exact Fx).
  rewrite X in C.
  foldn C.
  assert (N : nearest x = x) by (apply round_generic; auto with typeclass_instances).
  rewrite N in C. rewrite Rlt_bool_true in C by (eapply (bp_lt_1024 1023); [lia|auto]). destruct C as (C1 & C2 & _).
  split; auto.
Qed.

(** ** Runs without overflow and underflow *)
Section Quiet_runs.
Variables (u : R) (M : machine).
Hypothesis Hu : u64 <= u <= / 1000000.
Hypothesis HL : reads_literals M.
Hypothesis HM : library_accurate u M.
Lemma in_range_inrg r : in_range r -> inrg (-1022, 1022, false)%Z r.
Proof.
  intros [->|(A & B)].
  - repeat split; auto; [rewrite Rabs_R0; apply bpow_ge_0|discriminate].
  - repeat split; [right| |discriminate].
    + change (-1022)%Z with (- Z.of_nat 1022)%Z. rewrite bp_inv. exact A.
    + change 1022%Z with (Z.of_nat 1022)%Z. rewrite bp_pow. change (2 ^ 1023) with (2 * 2 ^ 1022) in B. lra.
Qed.
Lemma in_range_near r : in_range r -> near u r (nearest r).
Proof. intros H. apply (near_u u Hu), nearest_near. apply (rg_normal (-1022) 1022 false); [lia|apply in_range_inrg; auto]. Qed.
Lemma in_range_fin r : in_range r -> Rlt_bool (Rabs (nearest r)) (bp 1024) = true.
Proof. intros H. apply (fin_nearest (-1022) 1022 false); [lia|apply in_range_inrg; auto]. Qed.
Lemma op2_quiet o a b : dfinite a -> dfinite b -> def2 o (dval a) (dval b) -> in_range (rsem2 o (dval a) (dval b)) ->
  dfinite (dsem2 M o a b) /\ round2 u o (dval a) (dval b) (dval (dsem2 M o a b)).
Proof.
  intros A1 A2 D R. destruct o; cbn [rsem2 def2 dsem2 round2] in *.
  - pose proof (Bplus_correct 53 1024 _ _ mode_NE a b A1 A2) as B. fold (dval a) (dval b) in B. foldn B.
    rewrite in_range_fin in B by auto. destruct B as (B1 & B2 & _). split; auto. unfold dval at 3. rewrite B1. apply in_range_near; auto.
  - pose proof (Bminus_correct 53 1024 _ _ mode_NE a b A1 A2) as B. fold (dval a) (dval b) in B. foldn B.
    rewrite in_range_fin in B by auto. destruct B as (B1 & B2 & _). split; auto. unfold dval at 3. rewrite B1. apply in_range_near; auto.
  - pose proof (Bmult_correct 53 1024 _ _ mode_NE a b) as B. fold (dval a) (dval b) in B. foldn B.
    rewrite in_range_fin in B by auto. destruct B as (B1 & B2 & _). unfold dfinite in *. rewrite A1, A2 in B2.
    split; auto. unfold dval at 3. rewrite B1. apply in_range_near; auto.
  - pose proof (Bdiv_correct 53 1024 _ _ mode_NE a b D) as B. fold (dval a) (dval b) in B. foldn B.
    rewrite in_range_fin in B by auto. destruct B as (B1 & B2 & _). unfold dfinite in *. rewrite A1 in B2.
    split; auto. unfold dval at 3. rewrite B1. apply in_range_near; auto.
  - pose proof (Bdiv_correct 53 1024 _ _ mode_NE a b D) as B. fold (dval a) (dval b) in B. foldn B.
    rewrite in_range_fin in B by auto. destruct B as (B1 & B2 & _). unfold dfinite in *. rewrite A1 in B2.
    split; auto. unfold dval at 3. rewrite B1. apply in_range_near; auto.
  - apply (proj2 HM OPow); auto.
  - apply (proj2 HM OPowN); auto.
  - unfold dmax. rewrite (Bleb_correct 53 1024 a b A1 A2). fold (dval a) (dval b).
    case Rle_bool_spec; intros H; split; auto; [rewrite Rmax_right|rewrite Rmax_left]; lra.
Qed.
Lemma op1_quiet o a : dfinite a -> def1 o (dval a) -> in_range (rsem1 o (dval a)) ->
  dfinite (dsem1 M o a) /\ round1 u o (dval a) (dval (dsem1 M o a)).
Proof.
  intros A1 D R.
  assert (L : match o with ONeg | OSqrt => True | _ => dfinite (dsem1 M o a) /\ round1 u o (dval a) (dval (dsem1 M o a)) end).
  { pose proof (proj1 HM o a A1 D R) as P. destruct o; exact P || exact I. }
  destruct o; try exact L; cbn [rsem1 def1 dsem1 round1] in *.
  - unfold dfinite, dval. rewrite is_finite_Bopp, B2R_Bopp. auto.
  - pose proof (Bsqrt_correct 53 1024 _ _ mode_NE a) as (B1 & B2 & _). foldn B1. fold (dval a) in B1. split.
    + unfold dfinite in *. rewrite B2. unfold dval in D. destruct a as [s0| | |s0 mx ex Hx]; try discriminate; auto.
      destruct s0; auto. exfalso. cbn in D. unfold F2R in D. cbn in D.
      assert (IZR (Z.neg mx) * bp ex < 0); [|lra]. pose proof (bpow_gt_0 rdx ex). assert (IZR (Z.neg mx) < 0) by (apply IZR_lt; lia). nra.
    + unfold dval at 2. rewrite B1. apply in_range_near; auto.
Qed.
Lemma expr_quiet env e : Forall dfinite env -> quiet_expr M env e ->
  dfinite (dev M env e) /\ fev u (map dval env) e (Some (dval (dev M env e))).
Proof.
  intros E. induction e as [n|r|o e IH|o e1 IH1 e2 IH2]; cbn [quiet_expr dev fev].
  - intros _. split.
    + revert n. induction E; intros [|n]; cbn [nth]; auto; reflexivity.
    + f_equal. symmetry. exact (map_nth dval env (B754_zero false) n).
  - intros R. destruct (HL r) as (F & V).
    { apply in_range_inrg in R as (_ & R & _). eapply Rle_trans; [exact R|]. change (2 ^ 1023) with (2 * 2 ^ 1022).
      change 1022%Z with (Z.of_nat 1022). rewrite bp_pow. pose proof (pow_lt 2 1022 ltac:(lra)). lra. }
    split; auto. eexists; split; [reflexivity|]. rewrite V. split; [apply in_range_near; auto|].
    intros (z & Z & ->). apply round_generic; auto with typeclass_instances. apply int_fmt; auto.
  - intros (Q & D & R). destruct (IH Q) as (F & V). destruct (op1_quiet o _ F D R) as (F' & N). split; auto.
    exists (Some (dval (dev M env e))). split; auto. left. split; auto. eexists; split; [reflexivity|auto].
  - intros (Q1 & Q2 & D & R). destruct (IH1 Q1) as (F1 & V1). destruct (IH2 Q2) as (F2 & V2).
    destruct (op2_quiet o _ _ F1 F2 D R) as (F' & N). split; auto.
    exists (Some (dval (dev M env e1))), (Some (dval (dev M env e2))). repeat split; auto. left. split; auto. eexists; split; [reflexivity|auto].
Qed.
Lemma dcmp_val c a b : dfinite a -> dfinite b -> dcmp c a b = rcmpb c (dval a) (dval b).
Proof.
  intros A1 A2. destruct c; cbn [dcmp rcmpb]; [rewrite Bltb_correct by auto|rewrite Bleb_correct by auto|rewrite Beqb_correct by auto]; fold (dval a) (dval b).
  - unfold Rltb. case Rlt_bool_spec; intros; destruct Rlt_dec; auto; lra.
  - unfold Rleb. case Rle_bool_spec; intros; destruct Rle_dec; auto; lra.
  - unfold Reqb. case Req_bool_spec; intros; destruct Req_EM_T; auto; congruence.
Qed.
Lemma prog_quiet p : forall env, Forall dfinite env -> quiet M p env ->
  Forall dfinite (drun M p env) /\ fprog u p (map dval env) (Some (map dval (drun M p env))).
Proof.
  induction p as [es|e p IH|c e1 e2 p IHp q IHq]; intros env E; cbn [quiet drun fprog].
  - induction es as [|e es IH]; intros Q; [split; [constructor|reflexivity]|].
    destruct IH as (A & B); [intros e' He'; apply Q; right; auto|]. destruct (expr_quiet env e E (Q e (or_introl eq_refl))) as (F & V).
    split; [constructor; auto|]. exists (Some (dval (dev M env e))), (Some (map dval (map (dev M env) es))). auto.
  - intros (Q & Qp). destruct (expr_quiet env e E Q) as (F & V).
    destruct (IH (env ++ [dev M env e])) as (A & B); [apply Forall_app; auto|auto|]. split; auto.
    exists (Some (dval (dev M env e))). split; auto. rewrite map_app in B. exact B.
  - intros (Q1 & Q2 & Q). destruct (expr_quiet env e1 E Q1) as (F1 & V1). destruct (expr_quiet env e2 E Q2) as (F2 & V2).
    rewrite dcmp_val in * by auto.
    destruct (rcmpb c (dval (dev M env e1)) (dval (dev M env e2))) eqn:T; [destruct (IHp env E Q) as (A & B)|destruct (IHq env E Q) as (A & B)];
    (split; auto; exists (Some (dval (dev M env e1))), (Some (dval (dev M env e2))); repeat split; auto; rewrite T; auto).
Qed.
End Quiet_runs.

(** ** Ranges of the arguments carry over to the results *)
Ltac lit_rg r :=
  match r with
  | 1 => constr:((0, 0, true)%Z) | 2 => constr:((1, 1, true)%Z) | 3 => constr:((1, 2, true)%Z) | 4 => constr:((2, 2, true)%Z)
  | 5 => constr:((2, 3, true)%Z) | 6 => constr:((2, 3, true)%Z) | PI => constr:((1, 2, true)%Z) | 4 / 3 => constr:((0, 1, true)%Z)
  | 18 => constr:((4, 5, true)%Z) | 72 => constr:((6, 7, true)%Z) | 25 / 10 => constr:((1, 2, true)%Z) | 1000 => constr:((9, 10, true)%Z)
  | _ => constr:((-30, 30, true)%Z)
  end.
Ltac lit_solve := cbv [inrg]; cbn [bpow Zaux.radix_val Z.pow_pos Pos.iter Z.mul Pos.mul Zaux.radix2]; pose proof PI2_3_2; pose proof PI_4;
  rewrite Rabs_right by lra; split; [right; lra|split; [lra|intros _; lra]].
Ltac norm_tr p :=
  match type of p with tr ?u ?M ?G ?e ?g => let g' := eval vm_compute in g in constr:(p : tr u M G e g') end.
(** [infer Hu HL HM G e]: a proof that the values of e are in a computed range. *)
Ltac infer Hu HL HM u M G e :=
  lazymatch e with
  | EVar ?n => let g := eval vm_compute in (nth n G (0, 0, true)%Z) in constr:(tr_var u M G n g eq_refl)
  | ELit ?r =>
      let g := lit_rg r in
      lazymatch g with (?lo, ?hi, ?s) =>
        let H := constr:(ltac:(lit_solve) : inrg (lo, hi, s) r) in constr:(tr_lit u M Hu HL G r lo hi s H eq_refl) end
  | EOp1 ONeg ?a => let p := infer Hu HL HM u M G a in norm_tr constr:(tr_neg u M G a _ _ _ p)
  | EOp1 OSqrt ?a => let p := infer Hu HL HM u M G a in norm_tr constr:(tr_sqrt u M Hu G a _ _ _ p eq_refl)
  | EOp1 (OPown ?n) ?a => let p := infer Hu HL HM u M G a in norm_tr constr:(tr_pow1 u M Hu HM n G a _ _ _ p eq_refl)
  | EOp2 OAdd ?a ?b =>
      let p := infer Hu HL HM u M G a in let q := infer Hu HL HM u M G b in
      lazymatch type of p with
      | tr _ _ _ _ (_, _, true) =>
          lazymatch type of q with
          | tr _ _ _ _ (_, _, true) => norm_tr constr:(tr_add u M Hu G a b _ _ _ _ p q eq_refl)
          | _ => norm_tr constr:(tr_add_any u M Hu G a b _ _ _ _ _ _ p q eq_refl)
          end
      | _ => norm_tr constr:(tr_add_any u M Hu G a b _ _ _ _ _ _ p q eq_refl)
      end
  | EOp2 OSub ?a ?b =>
      let p := infer Hu HL HM u M G a in let q := infer Hu HL HM u M G b in norm_tr constr:(tr_sub u M Hu G a b _ _ _ _ _ _ p q eq_refl)
  | EOp2 OMul ?a ?b =>
      let p := infer Hu HL HM u M G a in let q := infer Hu HL HM u M G b in norm_tr constr:(tr_mul u M Hu G a b _ _ _ _ _ _ p q eq_refl)
  | EOp2 ODiv ?a ?b =>
      let p := infer Hu HL HM u M G a in let q := infer Hu HL HM u M G b in
      norm_tr constr:(tr_div u M Hu ODiv G a b _ _ _ _ _ _ (or_introl eq_refl) p q eq_refl)
  | EOp2 ODivN ?a ?b =>
      let p := infer Hu HL HM u M G a in let q := infer Hu HL HM u M G b in
      norm_tr constr:(tr_div u M Hu ODivN G a b _ _ _ _ _ _ (or_intror eq_refl) p q eq_refl)
  | EOp2 OPow ?a ?b =>
      let p := infer Hu HL HM u M G a in let q := infer Hu HL HM u M G b in
      norm_tr constr:(tr_pow2 u M Hu HM OPow G a b _ _ _ _ _ _ _ (or_introl eq_refl) p q eq_refl eq_refl)
  | EOp2 OPowN ?a ?b =>
      let p := infer Hu HL HM u M G a in let q := infer Hu HL HM u M G b in
      norm_tr constr:(tr_pow2 u M Hu HM OPowN G a b _ _ _ _ _ _ _ (or_intror eq_refl) p q eq_refl eq_refl)
  | EOp2 OMaximum ?a ?b =>
      let p := infer Hu HL HM u M G a in let q := infer Hu HL HM u M G b in norm_tr constr:(tr_max u M G a b _ _ _ _ _ _ p q)
  end.
Ltac ranges_expr Hu HL HM :=
  match goal with |- exists g, tr ?u ?M ?G ?e g => let p := infer Hu HL HM u M G e in eexists; exact p end.
Ltac ranges Hu HL HM :=
  cbn [app];
  lazymatch goal with
  | |- ptr ?u ?M ?G (PLet ?e ?p) => let q := infer Hu HL HM u M G e in (apply (ptr_let u M G e _ p q); ranges Hu HL HM)
  | |- ptr ?u ?M ?G (PRet ?es) => apply ptr_ret; repeat (constructor; [ranges_expr Hu HL HM|]); constructor
  | |- ptr ?u ?M ?G (PIf ?c ?e1 ?e2 ?p ?q) =>
      let q1 := infer Hu HL HM u M G e1 in let q2 := infer Hu HL HM u M G e2 in
      (apply (ptr_if u M G c e1 e2 _ _ p q q1 q2); ranges Hu HL HM)
  end.
