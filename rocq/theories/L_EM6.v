(** * EM: limits of the self-consistent iteration, cracks, dilute and flexible schemes, DEM. *)
From Verif Require Import Fl M_Utils M_EM Spec RealLemmas L_Lists L_EM5.
From Coquelicot Require Import Coquelicot.
Open Scope R_scope.

(** ** SC: the iterates converge *)
Lemma cv_const c : Un_cv (fun _ => c) c.
Proof. intros e He. exists O. intros. unfold R_dist. replace (c - c) with 0 by ring. rewrite Rabs_R0. auto. Qed.
Lemma cv_shift u l : Un_cv u l -> Un_cv (fun n => u (S n)) l.
Proof. intros H e He. destruct (H e He) as (N & HN). exists N. intros n Hn. apply HN. lia. Qed.
Lemma cv_ge u l c : Un_cv u l -> (forall n, c <= u n) -> c <= l.
Proof.
  intros H B. destruct (Rle_dec c l) as [|N]; [assumption|]. exfalso. destruct (H (c - l)) as (k & Hk); [lra|].
  specialize (Hk k (le_n k)). unfold R_dist in Hk. specialize (B k). rewrite Rabs_right in Hk; lra.
Qed.
Lemma cv_ext u v l : (forall n, u n = v n) -> Un_cv u l -> Un_cv v l.
Proof. intros E H e He. destruct (H e He) as (N & HN). exists N. intros n Hn. rewrite <- E. auto. Qed.
Lemma decr_cv u : (forall n, u (S n) <= u n) -> (forall n, 0 <= u n) -> exists l, Un_cv u l.
Proof.
  intros D B. destruct (decreasing_cv u) as (l & Hl).
  - exact D.
  - exists 0. intros x (n & ->). unfold opp_seq. specialize (B n). lra.
  - exists l. exact Hl.
Qed.
Ltac cvp := repeat first [ eassumption | apply CV_minus | apply CV_plus | apply CV_mult | apply cv_const ].

Section Lim.
Variables (Ks Gs phi : R).
Hypotheses (HK : 0 < Ks) (HG : 0 < Gs) (Hp : 0 <= phi).
Notation kn := (fun n => fst (sc Ks Gs phi n)).
Notation gn := (fun n => snd (sc Ks Gs phi n)).
Lemma sc_limit : exists a b, Un_cv kn a /\ Un_cv gn b /\ 0 <= a <= Ks /\ 0 <= b <= Gs /\
  a * (4 * a * b + Ks * (4 * b + 3 * a) * phi) = 4 * Ks * a * b /\
  b * ((9*a + 8*b) * b + Gs * (15*a + 20*b) * phi) = Gs * (9*a + 8*b) * b.
Proof.
  destruct (decr_cv kn) as (a & Ha).
  { intros n. apply (sc_decr Ks Gs HK HG phi n Hp). } { intros n. apply Rlt_le, (sc_pos Ks Gs HK HG phi n Hp). }
  destruct (decr_cv gn) as (b & Hb).
  { intros n. apply (sc_decr Ks Gs HK HG phi n Hp). } { intros n. apply Rlt_le, (sc_pos Ks Gs HK HG phi n Hp). }
  exists a, b. split; [exact Ha|]. split; [exact Hb|].
  assert (A0 : 0 <= a) by (apply (cv_ge _ _ _ Ha); intros n; apply Rlt_le, (sc_pos Ks Gs HK HG phi n Hp)).
  assert (B0 : 0 <= b) by (apply (cv_ge _ _ _ Hb); intros n; apply Rlt_le, (sc_pos Ks Gs HK HG phi n Hp)).
  assert (A1 : 0 <= Ks - a). { apply (cv_ge (fun n => Ks - kn n)); [cvp|]. intros n. destruct (sc_le_start Ks Gs HK HG phi n Hp). lra. }
  assert (B1 : 0 <= Gs - b). { apply (cv_ge (fun n => Gs - gn n)); [cvp|]. intros n. destruct (sc_le_start Ks Gs HK HG phi n Hp). lra. }
  assert (Ha' := cv_shift _ _ Ha). assert (Hb' := cv_shift _ _ Hb). cbv beta in Ha', Hb'.
  repeat split; try lra.
  - eapply UL_sequence with (Un := fun n => kn (S n) * (4 * kn n * gn n + Ks * (4 * gn n + 3 * kn n) * phi)); [cvp|].
    apply cv_ext with (u := fun n => 4 * Ks * kn n * gn n); [|cvp].
    intros n. cbv beta. rewrite sc_step. cbn [fst]. destruct (sc_pos Ks Gs HK HG phi n Hp).
    assert (D := kst_den Ks HK phi (kn n) (gn n) Hp ltac:(lra) ltac:(lra)). cbv beta in *. unfold kst.
    field. repeat split; try lra.
    assert (E : 1 / Ks + (1 / kn n + 3 / (4 * gn n)) * phi = (kn n * (gn n * 4) + (gn n * 4 + 3 * kn n) * phi * Ks) / (Ks * kn n * (gn n * 4))) by (field; lra).
    intro Q. cbv beta in *. rewrite E in D. 
    assert (4 * gn n * kn n + Ks * (4 * gn n + 3 * kn n) * phi > 0); [|lra].
    assert (0 < 4 * gn n * kn n) by pos. assert (0 <= Ks * (4 * gn n + 3 * kn n) * phi) by (apply Rmult_le_pos; [left; pos|lra]). lra.
  - eapply UL_sequence with (Un := fun n => gn (S n) * ((9 * kn (S n) + 8 * gn n) * gn n + Gs * (15 * kn (S n) + 20 * gn n) * phi)); [cvp|].
    apply cv_ext with (u := fun n => Gs * (9 * kn (S n) + 8 * gn n) * gn n); [|cvp].
    intros n. cbv beta. destruct (sc_pos Ks Gs HK HG phi n Hp), (sc_pos Ks Gs HK HG phi (S n) Hp).
    assert (E : snd (sc Ks Gs phi (S n)) = gst Gs phi (fst (sc Ks Gs phi (S n))) (snd (sc Ks Gs phi n))) by (rewrite sc_step; reflexivity).
    rewrite E. unfold gst. cbv beta in *. field.
    repeat split; try lra.
    assert (0 < (9 * kn (S n) + 8 * gn n) * gn n) by (cbv beta; pos).
    assert (0 <= Gs * (15 * kn (S n) + 20 * gn n) * phi) by (cbv beta; apply Rmult_le_pos; [left; pos|lra]). cbv beta in *. lra.
Qed.
Lemma sc_below a b n : 0 < a -> 0 < b -> a <= Ks -> b <= Gs -> kst Ks phi a b = a -> gst Gs phi a b = b ->
  a <= kn n /\ b <= gn n.
Proof.
  intros A B A1 B1 E1 E2. induction n as [|n (I1 & I2)]; [cbn; lra|]. cbv beta. rewrite sc_step. cbn [fst snd].
  assert (Q : a <= kst Ks phi (kn n) (gn n)). { rewrite <- E1 at 1. apply kst_mono; lra. }
  split; [exact Q|]. rewrite <- E2 at 1. apply gst_mono; lra.
Qed.
Lemma sc_limit_low : phi < 1/2 -> exists a b, Un_cv kn a /\ Un_cv gn b /\ 0 < a <= Ks /\ 0 < b <= Gs /\
  1 / a = 1 / Ks + (1 / a + 3 / (4 * b)) * phi /\
  1 / b = 1 / Gs + (15 * a + 20 * b) / (9 * a + 8 * b) * phi / b /\
  forall a' b', 0 < a' -> 0 < b' -> 1 / a' = 1 / Ks + (1 / a' + 3 / (4 * b')) * phi ->
    1 / b' = 1 / Gs + (15 * a' + 20 * b') / (9 * a' + 8 * b') * phi / b' -> a' <= a /\ b' <= b.
Proof.
  intros Hh. destruct sc_limit as (a & b & Ha & Hb & A & B & E1 & E2). exists a, b.
  set (g := Rmin Gs (3/4 * Ks)). assert (Hg : 0 < g) by (apply Rmin_glb_lt; lra).
  assert (g <= Gs) by apply Rmin_l. assert (g <= 3/4*Ks) by apply Rmin_r.
  assert (L := fun n => sc_lower Ks Gs HK HG phi g n Hp Hh Hg ltac:(lra) ltac:(lra)).
  assert (Pb : 0 < (1 - 2*phi) * g) by pos.
  assert (A0 : 4/3 * ((1 - 2*phi) * g) <= a) by (apply (cv_ge _ _ _ Ha); intros n; apply L).
  assert (B0 : (1 - 2*phi) * g <= b) by (apply (cv_ge _ _ _ Hb); intros n; apply L).
  split; [exact Ha|]. split; [exact Hb|]. split; [lra|]. split; [lra|].
  split.
  { apply Rmult_eq_reg_l with (4 * Ks * a * b * a).
    2:{ assert (0 < 4 * Ks * a * b * a) by pos. lra. }
    transitivity (4 * Ks * a * b); [field; lra|]. etransitivity; [symmetry; exact E1|]. field. lra. }
  split.
  { apply Rmult_eq_reg_l with (Gs * (9*a+8*b) * b * b).
    2:{ assert (0 < Gs * (9*a+8*b) * b * b) by pos. lra. }
    transitivity (Gs * (9*a + 8*b) * b); [field; lra|]. etransitivity; [symmetry; exact E2|]. field. lra. }
  intros a' b' A' B' F1 F2.
  assert (X1 : kst Ks phi a' b' = a') by (unfold kst; rewrite <- F1; field; lra).
  assert (X2 : gst Gs phi a' b' = b') by (unfold gst; rewrite <- F2; field; lra).
  assert (a' <= Ks) by (rewrite <- X1; apply kst_le; auto). assert (b' <= Gs) by (rewrite <- X2; apply gst_le; auto).
  split; [apply (cv_ge _ _ _ Ha)|apply (cv_ge _ _ _ Hb)]; intros n; apply (sc_below a' b' n); auto.
Qed.
Lemma sc_limit_high : 1/2 <= phi -> Un_cv kn 0 /\ Un_cv gn 0.
Proof.
  intros Hh. destruct sc_limit as (a & b & Ha & Hb & A & B & E1 & E2).
  assert (b = 0).
  { destruct (Req_EM_T b 0) as [|N]; [assumption|exfalso]. assert (0 < b) by lra.
    assert (F2 : b * (9*a+8*b) = Gs * ((9*a+8*b) - (15*a+20*b) * phi)).
    { apply Rmult_eq_reg_l with b; [|lra]. lra. }
    assert (P2 : 0 < (9*a+8*b) - (15*a+20*b) * phi).
    { assert (0 < b * (9*a+8*b)) by pos. rewrite F2 in H0. apply Rmult_lt_reg_l with Gs; lra. }
    destruct (Req_EM_T a 0) as [->|Na]; [nra|]. assert (0 < a) by lra.
    assert (F1 : 4 * a * b = Ks * (4 * b - (4*b + 3*a) * phi)).
    { apply Rmult_eq_reg_l with a; [|lra]. lra. }
    assert (P1 : 0 < 4 * b - (4*b + 3*a) * phi).
    { assert (0 < 4 * a * b) by pos. rewrite F1 in H1. apply Rmult_lt_reg_l with Ks; lra. }
    nra. }
  subst b. assert (a = 0).
  { destruct (Req_EM_T a 0) as [|N]; [assumption|exfalso]. assert (0 < a * (a * (Ks * phi))) by pos. nra. }
  subst a. auto.
Qed.
End Lim.

(** ** Swiss cheese *)
Section Sw.
Variables (m : mode) (Ks Gs : R).
Hypotheses (HK : 0 < Ks) (HG : 0 < Gs).
Lemma Swiss_eval phi : 0 <= phi ->
  EM_Swiss_cheese m (Fin Ks) (Fin Gs) (Fin phi) = Ret (Fin (kst Ks phi Ks Gs), Fin (gst Gs phi Ks Gs)).
Proof.
  intros. unfold EM_Swiss_cheese.
  assert (D := kst_den Ks HK phi Ks Gs H HK HG). assert (D2 := gst_den Gs HG phi Ks Gs H HK HG).
  assert (E1 : 1 / Ks * (1 + (1 + 3 * Ks / (4 * Gs)) * phi) = 1 / Ks + (1 / Ks + 3 / (4 * Gs)) * phi) by (field; lra).
  assert (E2 : 1 / Gs * (1 + (15 * Ks + 20 * Gs) * phi / (9 * Ks + 8 * Gs)) = 1 / Gs + (15 * Ks + 20 * Gs) / (9 * Ks + 8 * Gs) * phi / Gs) by (field; lra).
  repeat (first [fl1 | rewrite fdiv_fin by lra]; cbv beta). rewrite E1.
  repeat (first [fl1 | rewrite fdiv_fin by lra]; cbv beta). rewrite E2.
  repeat (first [fl1 | rewrite fdiv_fin by lra]; cbv beta). reflexivity.
Qed.
Lemma Swiss_spec phi : 0 <= phi -> exists K G P Q,
  EM_Swiss_cheese m (Fin Ks) (Fin Gs) (Fin phi) = Ret (Fin K, Fin G) /\
  EM_PQ m (Fin Ks) (Fin Gs) (Fin 0) (Fin 0) 1 = Ret (Fin P, Fin Q) /\
  0 < K <= Ks /\ 0 < G <= Gs /\ 1 / K = 1 / Ks + phi * P / Ks /\ 1 / G = 1 / Gs + phi * Q / Gs.
Proof.
  intros H. rewrite Swiss_eval by auto.
  exists (kst Ks phi Ks Gs), (gst Gs phi Ks Gs), (1 + 3 * Ks / (4 * Gs)), ((15 * Ks + 20 * Gs) / (9 * Ks + 8 * Gs)).
  split; [reflexivity|]. split.
  { unfold EM_PQ. destruct (Req_EM_T 1 1); [|lra]. fls. assert (0 < Gs / 6 * (9 * Ks + 8 * Gs) / (Ks + 2 * Gs)) by pos.
    set (xi := Gs / 6 * (9 * Ks + 8 * Gs) / (Ks + 2 * Gs)) in *. fls. reteq; [field; lra|].
    unfold xi. field. lra. }
  assert (P1 := kst_pos Ks HK phi Ks Gs H HK HG). assert (P2 := gst_pos Gs HG phi Ks Gs H HK HG).
  assert (Q1 := kst_le Ks HK phi Ks Gs H HK HG). assert (Q2 := gst_le Gs HG phi Ks Gs H HK HG).
  assert (D := kst_den Ks HK phi Ks Gs H HK HG). assert (D2 := gst_den Gs HG phi Ks Gs H HK HG).
  repeat split; try lra.
  - unfold kst. transitivity (1 / Ks + (1 / Ks + 3 / (4 * Gs)) * phi).
    + set (d := 1 / Ks + (1 / Ks + 3 / (4 * Gs)) * phi) in *. field. lra.
    + field. lra.
  - unfold gst. transitivity (1 / Gs + (15 * Ks + 20 * Gs) / (9 * Ks + 8 * Gs) * phi / Gs).
    + set (d := 1 / Gs + (15 * Ks + 20 * Gs) / (9 * Ks + 8 * Gs) * phi / Gs) in *. field. lra.
    + field. lra.
Qed.
Lemma Swiss_SC1 phi : 0 <= phi -> exists K G G',
  EM_Swiss_cheese m (Fin Ks) (Fin Gs) (Fin phi) = Ret (Fin K, Fin G) /\ EM_SC m (Fin phi) (Fin Ks) (Fin Gs) 1 = Ret (Fin K, Fin G') /\ G' <= G.
Proof.
  intros H. rewrite Swiss_eval by auto. assert (E := SC_eval m Ks Gs HK HG phi 1 H). cbn [Z.of_nat Pos.of_succ_nat] in E. rewrite E.
  do 3 eexists. split; [reflexivity|]. split; [reflexivity|]. rewrite sc_step. cbn [fst snd sc].
  assert (P1 := kst_pos Ks HK phi Ks Gs H HK HG). assert (Q1 := kst_le Ks HK phi Ks Gs H HK HG). apply gst_mono; lra.
Qed.
Lemma inv_lt_strict a b : 0 < a -> a < b -> 1 / b < 1 / a.
Proof. intros. unfold Rdiv. rewrite !Rmult_1_l. apply Rinv_lt_contravar; [pos|auto]. Qed.
Lemma Swiss_strict p q : 0 <= p -> p < q -> exists K G K' G',
  EM_Swiss_cheese m (Fin Ks) (Fin Gs) (Fin p) = Ret (Fin K, Fin G) /\ EM_Swiss_cheese m (Fin Ks) (Fin Gs) (Fin q) = Ret (Fin K', Fin G') /\ K' < K /\ G' < G.
Proof.
  intros. rewrite !Swiss_eval by lra. do 4 eexists. split; [reflexivity|]. split; [reflexivity|].
  assert (0 < 1 / Ks + 3 / (4 * Gs)). { assert (0 < 1 / Ks) by pos. assert (0 < 3 / (4 * Gs)) by pos. lra. }
  assert (0 < (15 * Ks + 20 * Gs) / (9 * Ks + 8 * Gs) / Gs) by pos.
  split; apply inv_lt_strict.
  - apply kst_den; auto.
  - nra.
  - apply gst_den; auto.
  - replace ((15 * Ks + 20 * Gs) / (9 * Ks + 8 * Gs) * p / Gs) with ((15 * Ks + 20 * Gs) / (9 * Ks + 8 * Gs) / Gs * p) by (field; lra).
    replace ((15 * Ks + 20 * Gs) / (9 * Ks + 8 * Gs) * q / Gs) with ((15 * Ks + 20 * Gs) / (9 * Ks + 8 * Gs) / Gs * q) by (field; lra). nra.
Qed.
End Sw.

(** ** Cracks: dilute and self-consistent *)
Definition pr (K G : R) : R := (3*K - 2*G) / (2 * (3*K + G)).
Lemma pr_facts K G : 0 < K -> 0 < G -> -1 < pr K G < 1/2.
Proof.
  intros. unfold pr. split.
  - apply Rmult_lt_reg_r with (2 * (3*K + G)); [lra|]. unfold Rdiv. rewrite Rmult_assoc, Rinv_l by lra. lra.
  - apply Rmult_lt_reg_r with (2 * (3*K + G)); [lra|]. unfold Rdiv. rewrite Rmult_assoc, Rinv_l by lra. lra.
Qed.
Definition ck (n : R) : R := 16 / 9 * (1 - n^2) / (1 - 2*n).
Definition cg (n : R) : R := 32 * (1 - n) * (5 - n) / (45 * (2 - n)).
Lemma ck_pos n : -1 < n < 1/2 -> 0 < ck n.
Proof. intros. unfold ck. assert (0 < 1 - n^2) by nra. pos. Qed.
Lemma cg_pos n : -1 < n < 1/2 -> 0 < cg n.
Proof. intros. unfold cg. pos. Qed.

Section Cracks.
Variables (m : mode) (K G : R).
Hypotheses (HK : 0 < K) (HG : 0 < G).
Let n := pr K G.
Definition dck (c : R) := 1 / (1 / K * (1 + ck n * c)).
Definition dcg (c : R) := 1 / (1 / G * (1 + cg n * c)).
Lemma Dilute_eval c : 0 <= c -> EM_Dilute_crack m (Fin K) (Fin G) (Fin c) = Ret (Fin (dck c), Fin (dcg c)).
Proof.
  intros Hc. assert (F := pr_facts K G HK HG). fold n in F. assert (Pk := ck_pos n F). assert (Pg := cg_pos n F).
  unfold EM_Dilute_crack. repeat (first [fl1 | rewrite fdiv_fin by lra]; cbv beta). fold (pr K G). fold n.
  assert (0 < 1 / K) by pos. assert (0 < 1 / G) by pos.
  assert (0 < 1 + ck n * c) by nra. assert (0 < 1 + cg n * c) by nra.
  assert (1 / K * (1 + ck n * c) <> 0) by (apply not_eq_sym, Rlt_not_eq; pos). assert (1 / G * (1 + cg n * c) <> 0) by (apply not_eq_sym, Rlt_not_eq; pos).
  repeat (first [fl1 | rewrite fdiv_fin by lra]; cbv beta). fold (ck n). 
  repeat (first [fl1 | rewrite fdiv_fin by (assumption || lra)]; cbv beta). fold (cg n).
  repeat (first [fl1 | rewrite fdiv_fin by (assumption || lra)]; cbv beta). reflexivity.
Qed.
Lemma Dilute_facts p q : 0 <= p -> p < q -> 0 < dck q < dck p /\ 0 < dcg q < dcg p.
Proof.
  intros Hp Hq. assert (F := pr_facts K G HK HG). fold n in F. assert (Pk := ck_pos n F). assert (Pg := cg_pos n F).
  assert (0 < 1 / K) by pos. assert (0 < 1 / G) by pos.
  assert (0 < 1 + ck n * p) by nra. assert (0 < 1 + cg n * p) by nra.
  assert (1 + ck n * p < 1 + ck n * q) by nra. assert (1 + cg n * p < 1 + cg n * q) by nra.
  unfold dck, dcg. repeat split.
  - pos. - apply inv_lt_strict; [pos|]. apply Rmult_lt_compat_l; lra.
  - pos. - apply inv_lt_strict; [pos|]. apply Rmult_lt_compat_l; lra.
Qed.
Lemma Dilute_0 : dck 0 = K /\ dcg 0 = G.
Proof. unfold dck, dcg. rewrite !Rmult_0_r, !Rplus_0_r. split; field; lra. Qed.

Definition obn (c : R) := n * (1 - 16 * c / 9).
Definition obk (c : R) := K * (1 - 16 * (1 - (obn c)^2) * c / (9 * (1 - 2 * obn c))).
Definition obg (c : R) := G * (1 - 32 * (1 - obn c) * (5 - obn c) * c / (45 * (2 - obn c))).
Lemma obn_facts c : 0 <= c <= 9/16 -> obn c < 1/2 /\ -1 < obn c.
Proof.
  intros Hc. assert (F := pr_facts K G HK HG). fold n in F. unfold obn. set (u := 1 - 16*c/9).
  assert (0 <= u <= 1) by (unfold u; lra). clearbody u. split.
  - destruct (Rle_dec 0 n); nra.
  - destruct (Rle_dec 0 n); nra.
Qed.
Lemma OB_eval c : 0 <= c <= 9/16 -> EM_OConnell_Budiansky m (Fin K) (Fin G) (Fin c) = Ret (Fin (obk c), Fin (obg c)).
Proof.
  intros Hc. destruct (obn_facts c Hc) as (F1 & F2). unfold EM_OConnell_Budiansky.
  repeat (first [fl1 | rewrite fdiv_fin by lra]; cbv beta).
  replace ((3*K - 2*G) / (6*K + 2*G)) with n by (unfold n, pr; field; lra). fold (obn c).
  repeat (first [fl1 | rewrite fdiv_fin by lra]; cbv beta). reflexivity.
Qed.
Lemma OB_zero : obk 0 = K /\ obg 0 = G /\ obk (9/16) = 0 /\ obg (9/16) = 0.
Proof.
  assert (F := pr_facts K G HK HG). fold n in F.
  unfold obk, obg. assert (E : obn (9/16) = 0) by (unfold obn; field). rewrite E. repeat split.
  - unfold obn. field. lra. - unfold obn. field. lra. - field. - field.
Qed.
Lemma OB_decr p q : 0 <= p -> p < q -> q <= 9/16 -> obk q < obk p /\ obg q < obg p.
Proof.
  intros Hp Hq Hr. assert (F := pr_facts K G HK HG). fold n in F.
  destruct (obn_facts p) as (F1 & F2); [lra|]. destruct (obn_facts q) as (F3 & F4); [lra|].
  unfold obk, obg, obn in *. set (u := 1 - 16*p/9) in *. set (v := 1 - 16*q/9) in *.
  replace p with (9/16 * (1 - u)) by (unfold u; field). replace q with (9/16 * (1 - v)) by (unfold v; field).
  assert (Hu : 0 <= v < u /\ u <= 1) by (unfold u, v; lra). clearbody u v. clear p q Hp Hq Hr. clearbody n.
  split.
  - apply Rmult_lt_compat_l; [auto|]. apply Rminus_lt_0.
    replace (1 - 16 * (1 - (n * u) ^ 2) * (9 / 16 * (1 - u)) / (9 * (1 - 2 * (n * u))) -
      (1 - 16 * (1 - (n * v) ^ 2) * (9 / 16 * (1 - v)) / (9 * (1 - 2 * (n * v)))))
    with ((u - v) * ((1 - 2*n) + n^2 * ((u + v) - (u^2 + u*v + v^2) - 2*n*(u*v)*(1 - u - v))) / ((1 - 2*(n*u)) * (1 - 2*(n*v)))) by (field; lra).
    apply Rdiv_lt_0_compat; [|apply Rmult_lt_0_compat; lra]. apply Rmult_lt_0_compat; [lra|].
    assert (B : - (1 - 2*n) <= (u + v) - (u^2 + u*v + v^2) - 2*n*(u*v)*(1 - u - v)).
    { assert (E1 : 0 <= (u + v) * ((1 - u) * (1 - v))) by (apply Rmult_le_pos; [lra|apply Rmult_le_pos; lra]).
      assert (E2 : 0 <= u + v - (u^2 + v^2) + u*v + 3 - 2*(u*v)*(u+v)).
      { assert (0 <= u * (1 - u)) by (apply Rmult_le_pos; lra). assert (0 <= v * (1 - v)) by (apply Rmult_le_pos; lra).
        assert (0 <= u*v) by (apply Rmult_le_pos; lra). assert (u * v <= 1) by nra.
        assert (0 <= (u*v) * (2 - u - v)) by (apply Rmult_le_pos; lra). lra. }
      apply Rminus_le.
      replace (- (1 - 2*n) - ((u + v) - (u^2 + u*v + v^2) - 2*n*(u*v)*(1 - u - v)))
        with (- (2/3 * (n + 1) * ((u + v) * ((1 - u) * (1 - v))) + 2/3 * (1/2 - n) * (u + v - (u^2 + v^2) + u*v + 3 - 2*(u*v)*(u+v)))) by field.
      assert (0 <= 2/3 * (n + 1) * ((u + v) * ((1 - u) * (1 - v)))) by (apply Rmult_le_pos; lra).
      assert (0 <= 2/3 * (1/2 - n) * (u + v - (u^2 + v^2) + u*v + 3 - 2*(u*v)*(u+v))) by (apply Rmult_le_pos; lra). lra. }
    assert (0 <= n^2 < 1) by nra. nra.
  - apply Rmult_lt_compat_l; [auto|]. apply Rminus_lt_0.
    replace (1 - 32 * (1 - n * u) * (5 - n * u) * (9 / 16 * (1 - u)) / (45 * (2 - n * u)) -
      (1 - 32 * (1 - n * v) * (5 - n * v) * (9 / 16 * (1 - v)) / (45 * (2 - n * v))))
    with ((u - v) * (2 * (7*n + 10) - 2 * (2*n*(6+n)) * (u + v) + 2*(2*n^2)*(u^2+u*v+v^2) - n*(u*v)*(-(2*n*(6+n)) + 2*n^2*(u+v))) / (5 * (2 - n*u) * (2 - n*v))) by (field; lra).
    apply Rdiv_lt_0_compat; [|repeat apply Rmult_lt_0_compat; lra]. apply Rmult_lt_0_compat; [lra|].
    assert (0 <= u*v) by (apply Rmult_le_pos; lra). assert (0 <= n^2) by apply pow2_ge_0.
    assert (0 <= n^2 * (u^2+u*v+v^2)) by (apply Rmult_le_pos; [auto|nra]).
    destruct (Rle_dec 0 n).
    + assert (0 <= n * (6 + n)) by nra. assert (n * (6 + n) < 13/4) by nra.
      assert (n * (6 + n) * (u + v) <= n * (6 + n) * 2) by (apply Rmult_le_compat_l; lra).
      assert (0 <= n * (u*v) * (2*(n*(6+n)))) by (repeat apply Rmult_le_pos; lra).
      assert (n * (u*v) * (2*n^2*(u+v)) <= 2 * n^2 * (u*v)).
      { replace (n * (u*v) * (2*n^2*(u+v))) with (2 * n^2 * (u*v) * (n * (u + v))) by ring.
        rewrite <- (Rmult_1_r (2 * n^2 * (u*v))) at 2. apply Rmult_le_compat_l; [repeat apply Rmult_le_pos; lra|nra]. }
      assert (n^2 * (u*v) <= n^2 * (u^2+u*v+v^2)) by (apply Rmult_le_compat_l; [auto|nra]).
      nra.
    + assert (n * (6 + n) <= 0) by nra. assert (0 <= -(n * (6+n)) * (u + v)) by (apply Rmult_le_pos; lra).
      assert (0 <= - n * (u*v) * (-(2*n*(6+n)) + 2*n^2*(u+v))).
      { apply Rmult_le_pos; [apply Rmult_le_pos; lra|]. assert (0 <= 2*n^2*(u+v)) by (apply Rmult_le_pos; lra). lra. }
      lra.
Qed.
Lemma first_order : exists k g, k < 0 /\ g < 0 /\
  derivable_pt_lim dck 0 k /\ derivable_pt_lim obk 0 k /\ derivable_pt_lim dcg 0 g /\ derivable_pt_lim obg 0 g.
Proof.
  assert (F := pr_facts K G HK HG). fold n in F. assert (Pk := ck_pos n F). assert (Pg := cg_pos n F).
  exists (- (K * ck n)), (- (G * cg n)). split; [nra|]. split; [nra|].
  repeat split; apply is_derive_Reals; unfold dck, dcg, obk, obg, obn.
  - auto_derive; [|field; lra]. rewrite Rmult_0_r, Rplus_0_r, Rmult_1_r. apply not_eq_sym, Rlt_not_eq. pos.
  - auto_derive; [|unfold ck; field; lra]. lra.
  - auto_derive; [|field; lra]. rewrite Rmult_0_r, Rplus_0_r, Rmult_1_r. apply not_eq_sym, Rlt_not_eq. pos.
  - auto_derive; [|unfold cg; field; lra]. lra.
Qed.
End Cracks.

(** ** O'Connell-Budiansky with fluid *)
Section OCfl.
Variables (m : mode) (K G Kf c al : R) (fsolve : (fl -> fl -> outcome (fl * fl)) -> fl * fl -> fl * fl).
Hypotheses (HK : 0 < K) (HG : 0 < G) (Hal : al <> 0).
Let n0 := pr K G.
Let w := Kf / al / K.
Variables (nu D : R).
Hypotheses (Hnu : -1 < nu < 1/2).
Definition oceq1 := 45 / 16 * (n0 - nu) / (1 - nu^2) * (2 - nu) / (D * (1 + 3 * n0) * (2 - nu) - 2 * (1 - 2 * n0)) - c.
Definition fk := K * (1 - 16 * (1 - nu^2) * c * D / (9 * (1 - 2 * nu))).
Definition fg := G * (1 - 32 / 45 * (1 - nu) * (D + 3 / (2 - nu)) * c).
Lemma OCfl_eval : 
  fsolve (fun a b => EM_OC_R_funcs m a b (Fin c) (Fin n0) (Fin w)) (Fin 0.2, Fin 0.9) = (Fin nu, Fin D) ->
  EM_OConnell_Budiansky_fl m fsolve (Fin K) (Fin G) (Fin Kf) (Fin c) (Fin al) = Ret (Fin fk, Fin fg).
Proof.
  intros E. unfold EM_OConnell_Budiansky_fl.
  repeat (first [fl1 | rewrite fdiv_fin by lra]; cbv beta).
  replace ((3*K - 2*G) / (6*K + 2*G)) with n0 by (unfold n0, pr; field; lra). fold w. rewrite E.
  repeat (first [fl1 | rewrite fdiv_fin by lra]; cbv beta). reflexivity.
Qed.
Lemma OC_eq1 : D * (1 + 3 * n0) * (2 - nu) - 2 * (1 - 2 * n0) <> 0 -> oceq1 = 0 ->
  3 * fk * (1 - 2 * nu) = 2 * fg * (1 + nu).
Proof.
  intros N E. assert (F := pr_facts K G HK HG). fold n0 in F. assert (0 < 1 - nu^2) by nra.
  assert (KG : K = 2 * G * (1 + n0) / (3 * (1 - 2 * n0))).
  { unfold n0, pr. field. lra. }
  assert (C : c * (1 - nu^2) * (D * (1 + 3 * n0) * (2 - nu) - 2 * (1 - 2 * n0)) = 45/16 * (n0 - nu) * (2 - nu)).
  { unfold oceq1 in E. replace c with (45 / 16 * (n0 - nu) / (1 - nu^2) * (2 - nu) / (D * (1 + 3 * n0) * (2 - nu) - 2 * (1 - 2 * n0))) by lra.
    field. lra. }
  clear E. unfold fk, fg.
  apply Rminus_diag_uniq.
  replace (3 * (K * (1 - 16 * (1 - nu ^ 2) * c * D / (9 * (1 - 2 * nu)))) * (1 - 2 * nu) -
    2 * (G * (1 - 32 / 45 * (1 - nu) * (D + 3 / (2 - nu)) * c)) * (1 + nu))
  with (3 * K * (1 - 2*nu) - 16/3 * K * (c * (1 - nu^2) * D) - 2 * G * (1 + nu) + 64/45 * G * (c * (1 - nu^2) * D) + 64/15 * G * (c * (1 - nu^2)) / (2 - nu)) by (field; lra).
  rewrite KG. 
  apply Rmult_eq_reg_r with ((1 - 2*n0) * (2 - nu)); [|apply Rgt_not_eq; apply Rmult_lt_0_compat; lra].
  rewrite Rmult_0_l.
  transitivity (- 32/15 * G * (c * (1 - nu^2) * (D * (1 + 3 * n0) * (2 - nu) - 2 * (1 - 2 * n0)) - 45/16 * (n0 - nu) * (2 - nu))).
  - field. lra.
  - rewrite C. ring.
Qed.
Lemma OC_funcs_eval : D * (1 + 3 * n0) * (2 - nu) - 2 * (1 - 2 * n0) <> 0 ->
  EM_OC_R_funcs m (Fin nu) (Fin D) (Fin c) (Fin n0) (Fin w) =
  Ret (Fin oceq1, Fin (c * D^2 - (c + 9/16 * (1 - 2*nu) / (1 - n0^2) + 3 * w / (4 * PI)) * D + 9/16 * (1 - 2*nu) / (1 - n0^2))).
Proof.
  intros N. assert (F := pr_facts K G HK HG). fold n0 in F. assert (0 < 1 - nu^2) by nra. assert (0 < 1 - n0^2) by nra.
  assert (HPI := PI_RGT_0). unfold EM_OC_R_funcs.
  repeat (first [fl1 | rewrite fdiv_fin by (assumption || lra)]; cbv beta). reflexivity.
Qed.
Lemma OC_dry_root : Kf = 0 -> D = 1 -> 
  c * D^2 - (c + 9/16 * (1 - 2*nu) / (1 - n0^2) + 3 * w / (4 * PI)) * D + 9/16 * (1 - 2*nu) / (1 - n0^2) = 0.
Proof. 
  intros -> ->. assert (F := pr_facts K G HK HG). fold n0 in F. assert (0 < 1 - n0^2) by nra. assert (HPI := PI_RGT_0).
  unfold w. field. lra.
Qed.
Lemma OC_dry_formula : D = 1 -> nu = obn K G c -> fk = obk K G c /\ fg = obg K G c.
Proof.
  intros E1 E2. unfold fk, fg, obk, obg. rewrite <- E2, E1. split; field; lra.
Qed.
Lemma OC_zero : c = 0 -> fk = K /\ fg = G.
Proof. intros E. unfold fk, fg. rewrite E. split; field; lra. Qed.
End OCfl.

(** ** Dilute inclusions, prescribed stress or strain *)
Section Dil.
Variables (m : mode) (Km Gm Ki Gi : R).
Hypotheses (HK : 0 < Km) (HG : 0 < Gm) (HKi : 0 <= Ki) (HGi : 0 <= Gi).
Definition sp := (Km + 4/3 * Gm) / (Ki + 4/3 * Gm).
Definition xi := Gm / 6 * (9 * Km + 8 * Gm) / (Km + 2 * Gm).
Definition sq := (Gm + xi) / (Gi + xi).
Lemma xi_pos : 0 < xi.
Proof. unfold xi. pos. Qed.
Lemma PQ_sphere : EM_PQ m (Fin Km) (Fin Gm) (Fin Ki) (Fin Gi) 1 = Ret (Fin sp, Fin sq).
Proof.
  assert (X := xi_pos). unfold EM_PQ. destruct (Req_EM_T 1 1); [|lra]. fls. fold xi. fls. reteq; unfold sp, sq; field; lra.
Qed.
Let nu := pr Km Gm.
Let S1 := 1 / 3 * (1 + nu) / (1 - nu).
Let S2 := 2 / 15 * (4 - 5 * nu) / (1 - nu).
Lemma S1_eq : S1 = Km / (Km + 4/3 * Gm).
Proof. unfold S1, nu, pr. field. lra. Qed.
Lemma S2_eq : S2 = Gm / (Gm + xi).
Proof. unfold S2, nu, pr, xi. field. repeat split; try lra. assert (0 < Km * Gm) by pos. assert (0 < Gm^2) by pos. nra. Qed.
Lemma dil_K : Km <> Ki -> Km / (Km - Ki) - S1 <> 0 /\ 1 / (Km / (Km - Ki) - S1) = (Km - Ki) * sp / Km.
Proof.
  intros N. rewrite S1_eq. assert (E : Km / (Km - Ki) - Km / (Km + 4/3*Gm) = Km * (Ki + 4/3*Gm) / ((Km - Ki) * (Km + 4/3*Gm))) by (field; lra).
  rewrite E. split.
  - apply Rmult_integral_contrapositive_currified; [apply not_eq_sym, Rlt_not_eq; pos|]. apply Rinv_neq_0_compat. 
    apply Rmult_integral_contrapositive_currified; lra.
  - unfold sp. field. lra.
Qed.
Lemma dil_G : Gm <> Gi -> Gm / (Gm - Gi) - S2 <> 0 /\ 1 / (Gm / (Gm - Gi) - S2) = (Gm - Gi) * sq / Gm.
Proof.
  intros N. rewrite S2_eq. assert (X := xi_pos). assert (E : Gm / (Gm - Gi) - Gm / (Gm + xi) = Gm * (Gi + xi) / ((Gm - Gi) * (Gm + xi))) by (field; lra).
  rewrite E. split.
  - apply Rmult_integral_contrapositive_currified; [apply not_eq_sym, Rlt_not_eq; pos|]. apply Rinv_neq_0_compat. 
    apply Rmult_integral_contrapositive_currified; lra.
  - unfold sq. field. lra.
Qed.
Lemma nu_half : 1 / 2 * (3 * Km - 2 * Gm) / (3 * Km + Gm) = nu.
Proof. unfold nu, pr. field. lra. Qed.
Lemma nu_lt : 1 - nu <> 0.
Proof. assert (F := pr_facts Km Gm HK HG). fold nu in F. lra. Qed.
Lemma SC_dilute_strain f : Km <> Ki -> Gm <> Gi ->
  EM_SC_dilute m (Fin Km) (Fin Gm) (Fin Ki) (Fin Gi) (Fin f) "strain" =
  Ret (Fin (1 - f * ((Km - Ki) * sp / Km)), Fin (1 - f * ((Gm - Gi) * sq / Gm))).
Proof.
  intros NK NG. destruct (dil_K NK) as (D1 & E1). destruct (dil_G NG) as (D2 & E2). assert (Hn := nu_lt).
  unfold EM_SC_dilute. repeat (first [fl1 | rewrite fdiv_fin by lra]; cbv beta). rewrite nu_half.
  repeat (first [fl1 | rewrite fdiv_fin by lra]; cbv beta). fold S1. fold S2. cbn [String.eqb Ascii.eqb Bool.eqb].
  repeat (first [fl1 | rewrite fdiv_fin by (assumption || lra)]; cbv beta). rewrite E1, E2. reflexivity.
Qed.
Lemma SC_dilute_stress f : Km <> Ki -> Gm <> Gi -> 1 + f * ((Km - Ki) * sp / Km) <> 0 -> 1 + f * ((Gm - Gi) * sq / Gm) <> 0 ->
  EM_SC_dilute m (Fin Km) (Fin Gm) (Fin Ki) (Fin Gi) (Fin f) "stress" =
  Ret (Fin (1 / (1 + f * ((Km - Ki) * sp / Km))), Fin (1 / (1 + f * ((Gm - Gi) * sq / Gm)))).
Proof.
  intros NK NG N1 N2. destruct (dil_K NK) as (D1 & E1). destruct (dil_G NG) as (D2 & E2). assert (Hn := nu_lt).
  unfold EM_SC_dilute. repeat (first [fl1 | rewrite fdiv_fin by lra]; cbv beta). rewrite nu_half.
  repeat (first [fl1 | rewrite fdiv_fin by lra]; cbv beta). fold S1. fold S2. cbn [String.eqb Ascii.eqb Bool.eqb].
  rewrite <- E1 in *. rewrite <- E2 in *.
  repeat (first [fl1 | rewrite fdiv_fin by (assumption || lra)]; cbv beta). reflexivity.
Qed.
Lemma SC_dilute_bad f mode_ : mode_ <> "stress"%string -> mode_ <> "strain"%string ->
  EM_SC_dilute m (Fin Km) (Fin Gm) (Fin Ki) (Fin Gi) (Fin f) mode_ = Raise UnboundLocalError.
Proof.
  intros N1 N2. assert (Hn := nu_lt).
  unfold EM_SC_dilute. repeat (first [fl1 | rewrite fdiv_fin by lra]; cbv beta). rewrite nu_half.
  repeat (first [fl1 | rewrite fdiv_fin by lra]; cbv beta).
  destruct (String.eqb_spec mode_ "stress"); [contradiction|]. destruct (String.eqb_spec mode_ "strain"); [contradiction|]. reflexivity.
Qed.
(** One pass of [SC_flex], from the state (Km, Gm) playing (K_eff, G_eff), host moduli (K0, G0). *)
Lemma flex_step f K0 G0 : K0 <> 0 -> G0 <> 0 -> Km <> Ki -> Gm <> Gi ->
  EM_SC_flex_step m (Fin f) (Fin K0) (Fin Ki) (Fin G0) (Fin Gi) (Fin Km) (Fin Gm) =
  Ret (Fin (K0 + f * (Ki - K0) * sp), Fin (G0 + f * (Gi - G0) * sq)).
Proof.
  intros N0 N1 NK NG. destruct (dil_K NK) as (D1 & E1). destruct (dil_G NG) as (D2 & E2). assert (Hn := nu_lt).
  assert (K0 * (Km - Ki) <> 0) by (apply Rmult_integral_contrapositive_currified; lra).
  assert (G0 * (Gm - Gi) <> 0) by (apply Rmult_integral_contrapositive_currified; lra).
  unfold EM_SC_flex_step. repeat (first [fl1 | rewrite fdiv_fin by lra]; cbv beta). rewrite nu_half.
  repeat (first [fl1 | rewrite fdiv_fin by lra]; cbv beta). fold S1. fold S2.
  repeat (first [fl1 | rewrite fdiv_fin by (assumption || lra)]; cbv beta). rewrite E1, E2.
  assert (X := xi_pos). reteq; unfold sp, sq; field; lra.
Qed.
(** A state left unchanged solves the two-phase self-consistent equations. *)
Lemma flex_fixed f K0 G0 : 0 <= K0 -> 0 <= G0 -> Km = K0 + f * (Ki - K0) * sp -> Gm = G0 + f * (Gi - G0) * sq ->
  (1 - f) * (K0 - Km) * ((Km + 4/3*Gm) / (K0 + 4/3*Gm)) + f * (Ki - Km) * sp = 0 /\
  (1 - f) * (G0 - Gm) * ((Gm + xi) / (G0 + xi)) + f * (Gi - Gm) * sq = 0.
Proof.
  intros P0 P1 E1 E2. assert (X := xi_pos). unfold sp, sq in *. set (z := 4/3*Gm) in *. assert (0 < z) by (unfold z; lra).
  clearbody z. generalize dependent xi. intros x. intros. split.
  - apply Rmult_eq_reg_r with ((K0 + z) * (Ki + z)); [|apply not_eq_sym, Rlt_not_eq; pos]. rewrite Rmult_0_l.
    assert (F : (Km - K0) * (Ki + z) = f * (Ki - K0) * (Km + z)).
    { transitivity (f * (Ki - K0) * ((Km + z) / (Ki + z)) * (Ki + z)); [f_equal; lra|]. field. lra. }
    transitivity ((Km + z) * (f * (Ki - K0) * (Km + z) - (Km - K0) * (Ki + z))); [field; lra|]. rewrite F. ring.
  - apply Rmult_eq_reg_r with ((G0 + x) * (Gi + x)); [|apply not_eq_sym, Rlt_not_eq; pos]. rewrite Rmult_0_l.
    assert (F : (Gm - G0) * (Gi + x) = f * (Gi - G0) * (Gm + x)).
    { transitivity (f * (Gi - G0) * ((Gm + x) / (Gi + x)) * (Gi + x)); [f_equal; lra|]. field. lra. }
    transitivity ((Gm + x) * (f * (Gi - G0) * (Gm + x) - (Gm - G0) * (Gi + x))); [field; lra|]. rewrite F. ring.
Qed.
End Dil.

(** SC_flex with no inclusions: back to the host after one or more passes. *)
Lemma flex_zero m Km Ki Gm Gi n : 0 < Km -> 0 < Gm -> 0 <= Ki -> 0 <= Gi -> Km <> Ki -> Gm <> Gi -> Km <> Gi ->
  EM_SC_flex m (Fin 0) (Z.of_nat (S n)) (Fin Km) (Fin Ki) (Fin Gm) (Fin Gi) = Ret (Fin Km, Fin Gm) /\
  EM_SC_flex m (Fin 0) 0 (Fin Km) (Fin Ki) (Fin Gm) (Fin Gi) = Ret (Fin Km, Fin Km).
Proof.
  intros. split; [|reflexivity]. unfold EM_SC_flex. rewrite Nat2Z.id. cbn [EM_SC_flex_loop].
  rewrite (flex_step m Km Km Ki Gi) by lra. rewrite call_ret. rewrite !Rmult_0_l, !Rplus_0_r.
  induction n as [|n IH]; [reflexivity|]. cbn [EM_SC_flex_loop].
  rewrite (flex_step m Km Gm Ki Gi) by lra. rewrite call_ret. rewrite !Rmult_0_l, !Rplus_0_r. exact IH.
Qed.

(** ** DEM *)
Section DEM.
Variables (m : mode) (G Km Ki al : R).
Hypotheses (HG : 0 < G) (HKm : 0 < Km) (HKi : 0 <= Ki) (Hal : 0 < al).
Definition demK (t : R) : R := 1 / ((1 - t) / (Km + 4/3*G) + t / (Ki + 4/3*G)) - 4/3*G.
Lemma DEM_equal_G K t : 0 < K -> t <> 1 -> 
  EM_DEM m (Fin K) (Fin G) (Fin t) (Fin G, Fin Ki, al)
  = Ret (Fin ((Ki - K) / (1 - t) * ((K + 4/3*G) / (Ki + 4/3*G))), Fin 0).
Proof.
  intros HK Ht. unfold EM_DEM. rewrite PQ_equal_G by lra. rewrite call_ret. cbv beta iota.
  repeat (first [fl1 | rewrite fdiv_fin by lra]; cbv beta). reteq; field; lra.
Qed.
Lemma demK_den t : 0 <= t < 1 -> 0 < (1 - t) / (Km + 4/3*G) + t / (Ki + 4/3*G).
Proof.
  intros. assert (0 < (1 - t) / (Km + 4/3*G)) by pos.
  assert (0 <= t / (Ki + 4/3*G)) by (apply Rmult_le_pos; [lra|left; pos]). lra.
Qed.
Lemma demK_pos t : 0 <= t < 1 -> 0 < demK t.
Proof.
  intros H. assert (D := demK_den t H). unfold demK.
  assert (1 / (3 / (4 * G)) < 1 / ((1 - t) / (Km + 4/3*G) + t / (Ki + 4/3*G))).
  { apply inv_lt_strict; [exact D|].
    assert ((1 - t) / (Km + 4/3*G) < (1 - t) * (3 / (4*G))).
    { unfold Rdiv at 1. apply Rmult_lt_compat_l; [lra|]. replace (3 / (4*G)) with (/ (4/3*G)) by (field; lra).
      apply Rinv_lt_contravar; [pos|lra]. }
    assert (t / (Ki + 4/3*G) <= t * (3 / (4*G))).
    { unfold Rdiv at 1. apply Rmult_le_compat_l; [lra|]. replace (3 / (4*G)) with (/ (4/3*G)) by (field; lra).
      apply Rinv_le_contravar; lra. }
    lra. }
  replace (4/3*G) with (1 / (3 / (4*G))) at 3 by (field; lra). lra.
Qed.
Lemma demK_ode t : 0 <= t < 1 -> exists d, derivable_pt_lim demK t d /\
  EM_DEM m (Fin (demK t)) (Fin G) (Fin t) (Fin G, Fin Ki, al) = Ret (Fin d, Fin 0).
Proof.
  intros H. rewrite DEM_equal_G; [|apply demK_pos; auto|lra]. eexists. split; [|reflexivity].
  assert (D := demK_den t H). apply is_derive_Reals. unfold demK. auto_derive.
  - lra.
  - assert (Dz : (1 - t) * (Ki + 4/3*G) + t * (Km + 4/3*G) > 0).
    { replace ((1 - t) / (Km + 4/3*G) + t / (Ki + 4/3*G)) with (((1 - t) * (Ki + 4/3*G) + t * (Km + 4/3*G)) / ((Km + 4/3*G) * (Ki + 4/3*G))) in D by (field; lra).
      assert (0 < (Km + 4/3*G) * (Ki + 4/3*G)) by pos.
      assert (0 < ((1 - t) * (Ki + 4/3*G) + t * (Km + 4/3*G)) / ((Km + 4/3*G) * (Ki + 4/3*G)) * ((Km + 4/3*G) * (Ki + 4/3*G))) by pos.
      unfold Rdiv in H1. rewrite Rmult_assoc, Rinv_l in H1; lra. }
    field. repeat split; lra.
Qed.
Lemma demK_ends : demK 0 = Km /\ demK 1 = Ki.
Proof. unfold demK. split; field; lra. Qed.
End DEM.
