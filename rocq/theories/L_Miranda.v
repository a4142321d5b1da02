(** * L_Miranda: two Lipschitz functions with opposite signs on opposite sides of a rectangle have a common zero
    (Poincare-Miranda in the plane), by counting label changes around the squares of a grid. *)
From Coq Require Import Reals Lra Lia ZArith Classical.
From Coquelicot Require Import Coquelicot.
From Verif Require Import L_Dem L_Dem2.
Open Scope R_scope.

(** ** Labels on a grid *)
Section Grid.
Open Scope Z_scope. Open Scope bool_scope.
Variables (n : nat) (fp gp : nat -> nat -> bool).
(** 0: both positive; 1: the first is not; 2: only the second is not. *)
Let lab (i j : nat) : Z := if fp i j then if gp i j then 0 else 2 else 1.
Definition w (a b : Z) : Z := if (a =? 0) && (b =? 1) then 1 else if (a =? 1) && (b =? 0) then -1 else 0.
Fixpoint row (j : nat) (k : nat) : Z := match k with O => 0 | S k => row j k + w (lab k j) (lab (S k) j) end.
Hypothesis (Hl : forall j, fp 0 j = true) (Hr : forall j, fp n j = false) (Hb : forall i, gp i 0 = true) (Ht : forall i, gp i n = false).
Lemma row_bottom k : row 0 k = lab k 0.
Proof.
  induction k as [|k IH]; cbn [row]; [unfold lab; rewrite Hl, Hb; reflexivity|]. rewrite IH. unfold lab. rewrite !Hb. destruct (fp k 0), (fp (S k) 0); reflexivity.
Qed.
Lemma row_top k : row n k = 0.
Proof. induction k as [|k IH]; cbn [row]; [reflexivity|]. rewrite IH. unfold lab. rewrite !Ht. destruct (fp k n), (fp (S k) n); reflexivity. Qed.
Lemma up_left j : w (lab 0 j) (lab 0 (S j)) = 0.
Proof. unfold lab. rewrite !Hl. destruct (gp 0 j), (gp 0 (S j)); reflexivity. Qed.
Lemma up_right j : w (lab n j) (lab n (S j)) = 0.
Proof. unfold lab. rewrite !Hr. reflexivity. Qed.
Definition corner (P : nat -> nat -> bool) (i j : nat) (b : bool) : Prop := P i j = b \/ P (S i) j = b \/ P i (S j) = b \/ P (S i) (S j) = b.
Definition mixed (i j : nat) : Prop := (corner fp i j true /\ corner fp i j false) /\ (corner gp i j true /\ corner gp i j false).
Let some (P : nat -> nat -> bool) i j : bool := P i j || P (S i) j || P i (S j) || P (S i) (S j).
Let all (P : nat -> nat -> bool) i j : bool := P i j && P (S i) j && P i (S j) && P (S i) (S j).
Lemma some_all (P : nat -> nat -> bool) i j : (some P i j && negb (all P i j)) = true -> corner P i j true /\ corner P i j false.
Proof. unfold some, all, corner. destruct (P i j), (P (S i) j), (P i (S j)), (P (S i) (S j)); cbn; intros H; try discriminate; split; auto. Qed.
Lemma circ i j : ~ mixed i j -> w (lab i j) (lab (S i) j) + w (lab (S i) j) (lab (S i) (S j)) = w (lab i j) (lab i (S j)) + w (lab i (S j)) (lab (S i) (S j)).
Proof.
  intros N. assert (M : (some fp i j && negb (all fp i j)) && (some gp i j && negb (all gp i j)) = false).
  { destruct (some fp i j && negb (all fp i j)) eqn:A; [|reflexivity]. destruct (some gp i j && negb (all gp i j)) eqn:B; [|reflexivity].
    exfalso. apply N. split; apply some_all; assumption. }
  clear N. revert M. unfold some, all, lab.
  destruct (fp i j), (fp (S i) j), (fp i (S j)), (fp (S i) (S j)), (gp i j), (gp (S i) j), (gp i (S j)), (gp (S i) (S j)); cbv; intros M; first [reflexivity|discriminate M].
Qed.
Lemma row_step j k : (forall i, (i < k)%nat -> ~ mixed i j) -> row j k + w (lab k j) (lab k (S j)) = w (lab 0 j) (lab 0 (S j)) + row (S j) k.
Proof.
  induction k as [|k IH]; intros H; cbn [row]; [lia|]. assert (C := circ k j (H k (Nat.lt_succ_diag_r k))). specialize (IH (fun i Hi => H i (Nat.lt_lt_succ_r _ _ Hi))). lia.
Qed.
Lemma grid_mixed : exists i j, (i < n)%nat /\ (j < n)%nat /\ mixed i j.
Proof.
  apply NNPP. intros N. assert (H : forall i j, (i < n)%nat -> (j < n)%nat -> ~ mixed i j) by (intros i j Hi Hj M; apply N; exists i, j; auto).
  assert (E : forall j, (j <= n)%nat -> row j n = row 0 n).
  { induction j as [|j IH]; intros Hj; [reflexivity|]. assert (S := row_step j n (fun i Hi => H i j Hi Hj)). rewrite up_left, up_right in S. rewrite <- IH by lia. lia. }
  specialize (E n (Nat.le_refl n)). rewrite row_top, row_bottom in E. unfold lab in E. rewrite Hr in E. discriminate.
Qed.
End Grid.

(** ** The continuous statement *)
Section Miranda.
Variables (k0 k1 g0 g1 : R) (f g : R -> R -> R).
Hypotheses (Hk : k0 < k1) (Hg : g0 < g1) (Lf : Lip k0 k1 g0 g1 f) (Lg : Lip k0 k1 g0 g1 g).
Hypotheses (Fl : forall y, g0 <= y <= g1 -> 0 <= f k0 y) (Fr : forall y, g0 <= y <= g1 -> f k1 y <= 0).
Hypotheses (Gb : forall x, k0 <= x <= k1 -> 0 <= g x g0) (Gt : forall x, k0 <= x <= k1 -> g x g1 <= 0).
Lemma near_zero : exists C, 0 <= C /\ forall n, (0 < n)%nat -> exists x y, k0 <= x <= k1 /\ g0 <= y <= g1 /\ Rabs (f x y) + Rabs (g x y) <= C / INR n.
Proof.
  destruct Lf as (L & HL & HLf). destruct Lg as (M & HM & HLg). set (d := (k1 - k0) + (g1 - g0)). exists ((L + M) * d). assert (Hd : 0 < d) by (unfold d; lra). split; [apply Rmult_le_pos; lra|].
  intros n Hn. assert (N : 0 < INR n) by (apply lt_0_INR; auto).
  set (X := fun i => k0 + (k1 - k0) * (INR i / INR n)). set (Y := fun j => g0 + (g1 - g0) * (INR j / INR n)).
  assert (I01 : forall i, (i <= n)%nat -> 0 <= INR i / INR n <= 1). { intros i Hi. assert (0 <= INR i) by apply pos_INR. assert (INR i <= INR n) by (apply le_INR; auto).
    split; [apply Rmult_le_pos; [auto|left; apply Rinv_0_lt_compat; auto]|]. apply Rmult_le_reg_r with (INR n); [auto|]. unfold Rdiv. rewrite Rmult_assoc, Rinv_l; lra. }
  assert (IX : forall i, (i <= n)%nat -> k0 <= X i <= k1). { intros i Hi. unfold X. specialize (I01 i Hi). set (q := INR i / INR n) in *. assert (0 <= (k1 - k0) * q) by (apply Rmult_le_pos; lra). assert (0 <= (k1 - k0) * (1 - q)) by (apply Rmult_le_pos; lra). lra. }
  assert (IY : forall i, (i <= n)%nat -> g0 <= Y i <= g1). { intros i Hi. unfold Y. specialize (I01 i Hi). set (q := INR i / INR n) in *. assert (0 <= (g1 - g0) * q) by (apply Rmult_le_pos; lra). assert (0 <= (g1 - g0) * (1 - q)) by (apply Rmult_le_pos; lra). lra. }
  set (fp := fun i j : nat => if Nat.eq_dec i 0 then true else if Nat.eq_dec i n then false else if Rlt_dec 0 (f (X i) (Y j)) then true else false).
  set (gp := fun i j : nat => if Nat.eq_dec j 0 then true else if Nat.eq_dec j n then false else if Rlt_dec 0 (g (X i) (Y j)) then true else false).
  assert (X0 : X 0%nat = k0) by (unfold X; cbn; field; lra). assert (Xn : X n = k1) by (unfold X; field; lra).
  assert (Y0 : Y 0%nat = g0) by (unfold Y; cbn; field; lra). assert (Yn : Y n = g1) by (unfold Y; field; lra).
  assert (Sf : forall i j, (i <= n)%nat -> (j <= n)%nat -> (fp i j = true -> 0 <= f (X i) (Y j)) /\ (fp i j = false -> f (X i) (Y j) <= 0)).
  { intros i j Hi Hj. unfold fp. destruct (Nat.eq_dec i 0) as [->|A]; [split; [rewrite X0; auto|discriminate]|]. destruct (Nat.eq_dec i n) as [->|B]; [split; [discriminate|rewrite Xn; auto]|].
    destruct Rlt_dec; split; try discriminate; intros _; lra. }
  assert (Sg : forall i j, (i <= n)%nat -> (j <= n)%nat -> (gp i j = true -> 0 <= g (X i) (Y j)) /\ (gp i j = false -> g (X i) (Y j) <= 0)).
  { intros i j Hi Hj. unfold gp. destruct (Nat.eq_dec j 0) as [->|A]; [split; [rewrite Y0; auto|discriminate]|]. destruct (Nat.eq_dec j n) as [->|B]; [split; [discriminate|rewrite Yn; auto]|].
    destruct Rlt_dec; split; try discriminate; intros _; lra. }
  destruct (grid_mixed n fp gp) as (i & j & Hi & Hj & (F1 & F2) & (G1 & G2)).
  { intros j. unfold fp. destruct Nat.eq_dec; congruence. } { intros j. unfold fp. destruct Nat.eq_dec; [lia|]. destruct Nat.eq_dec; congruence. }
  { intros i. unfold gp. destruct Nat.eq_dec; congruence. } { intros i. unfold gp. destruct Nat.eq_dec; [lia|]. destruct Nat.eq_dec; congruence. }
  assert (SX : X (S i) - X i = (k1 - k0) / INR n) by (unfold X; rewrite S_INR; field; lra). assert (SY : Y (S j) - Y j = (g1 - g0) / INR n) by (unfold Y; rewrite S_INR; field; lra).
  assert (DX : 0 <= (k1 - k0) / INR n) by (apply Rmult_le_pos; [lra|left; apply Rinv_0_lt_compat; auto]). assert (DY : 0 <= (g1 - g0) / INR n) by (apply Rmult_le_pos; [lra|left; apply Rinv_0_lt_compat; auto]).
  assert (Ed : d / INR n = (k1 - k0) / INR n + (g1 - g0) / INR n) by (unfold d; field; lra).
  assert (Q : forall (h : R -> R -> R) c (hp : nat -> nat -> bool), 0 <= c -> (forall K G K' G', inbox k0 k1 g0 g1 K G -> inbox k0 k1 g0 g1 K' G' -> Rabs (h K G - h K' G') <= c * (Rabs (K - K') + Rabs (G - G'))) ->
    (forall i j, (i <= n)%nat -> (j <= n)%nat -> (hp i j = true -> 0 <= h (X i) (Y j)) /\ (hp i j = false -> h (X i) (Y j) <= 0)) ->
    corner hp i j true -> corner hp i j false -> Rabs (h (X i) (Y j)) <= c * (d / INR n)).
  { intros h c hp Hc HLip Sh C1 C2.
    assert (U : forall i' j', i' = i \/ i' = S i -> j' = j \/ j' = S j -> Rabs (h (X i) (Y j) - h (X i') (Y j')) <= c * (d / INR n)).
    { intros i' j' Ei Ej. apply Rle_trans with (1 := HLip _ _ _ _ (conj (IX i ltac:(lia)) (IY j ltac:(lia))) (conj (IX i' ltac:(lia)) (IY j' ltac:(lia)))). apply Rmult_le_compat_l; [exact Hc|]. rewrite Ed. apply Rplus_le_compat.
      - destruct Ei as [->| ->]; [rewrite Rminus_eq_0, Rabs_R0; exact DX|]. rewrite Rabs_minus_sym, SX, Rabs_right; lra.
      - destruct Ej as [->| ->]; [rewrite Rminus_eq_0, Rabs_R0; exact DY|]. rewrite Rabs_minus_sym, SY, Rabs_right; lra. }
    assert (A1 : exists i' j', (i' = i \/ i' = S i) /\ (j' = j \/ j' = S j) /\ 0 <= h (X i') (Y j')).
    { destruct C1 as [E|[E|[E|E]]]; apply Sh in E; try lia; do 2 eexists; (split; [|split; [|exact E]]); auto. }
    assert (A2 : exists i' j', (i' = i \/ i' = S i) /\ (j' = j \/ j' = S j) /\ h (X i') (Y j') <= 0).
    { destruct C2 as [E|[E|[E|E]]]; apply Sh in E; try lia; do 2 eexists; (split; [|split; [|exact E]]); auto. }
    destruct A1 as (i1 & j1 & e1 & e2 & P1). destruct A2 as (i2 & j2 & e3 & e4 & P2). assert (U1 := U i1 j1 e1 e2). assert (U2 := U i2 j2 e3 e4).
    apply Rcomplements.Rabs_le_between in U1. apply Rcomplements.Rabs_le_between in U2. apply Rcomplements.Rabs_le_between. clear -U1 U2 P1 P2. lra. }
  exists (X i), (Y j). split; [apply IX; lia|]. split; [apply IY; lia|].
  assert (Qf := Q f L fp HL HLf Sf F1 F2). assert (Qg := Q g M gp HM HLg Sg G1 G2).
  replace ((L + M) * d / INR n) with (L * (d / INR n) + M * (d / INR n)) by (field; lra). lra.
Qed.

(** A Lipschitz function on the rectangle attains its minimum. *)
Lemma attains (h : R -> R -> R) : Lip k0 k1 g0 g1 h -> exists x y, (k0 <= x <= k1 /\ g0 <= y <= g1) /\ forall x' y', k0 <= x' <= k1 -> g0 <= y' <= g1 -> h x y <= h x' y'.
Proof.
  intros Lh. destruct (Lip_global k0 k1 g0 g1 h ltac:(lra) ltac:(lra) Lh) as (L & HL & H).
  set (H2 := fun x y => h (clamp k0 k1 x) (clamp g0 g1 y)) in *.
  assert (CY : forall x y, continuity_pt (H2 x) y).
  { intros x y eps He. exists (eps / (L + 1)). split; [apply Rdiv_lt_0_compat; lra|]. intros z (_ & Hz). unfold dist in *; cbn in *; unfold R_dist in *.
    apply Rle_lt_trans with (1 := H x z x y). rewrite Rminus_eq_0, Rabs_R0, Rplus_0_l. assert (0 <= Rabs (z - y)) by apply Rabs_pos.
    apply Rle_lt_trans with ((L + 1) * Rabs (z - y)); [apply Rmult_le_compat_r; lra|]. replace eps with ((L + 1) * (eps / (L + 1))) by (field; lra). apply Rmult_lt_compat_l; lra. }
  assert (MinY : forall x, exists y, g0 <= y <= g1 /\ forall y', g0 <= y' <= g1 -> H2 x y <= H2 x y').
  { intros x. destruct (continuity_ab_min (H2 x) g0 g1 ltac:(lra) (fun c _ => CY x c)) as (y & A & B). exists y. auto. }
  set (E := fun x v => exists y, g0 <= y <= g1 /\ v = - H2 x y).
  assert (BE : forall x, bound (E x)). { intros x. destruct (MinY x) as (y & Hy & A). exists (- H2 x y). intros v (y' & Hy' & ->). specialize (A y' Hy'). lra. }
  assert (NE : forall x, exists v, E x v) by (intros x; exists (- H2 x g0), g0; split; [lra|reflexivity]).
  set (ph := fun x => - proj1_sig (completeness (E x) (BE x) (NE x))).
  assert (Pph : forall x, (forall y, g0 <= y <= g1 -> ph x <= H2 x y) /\ exists y, g0 <= y <= g1 /\ ph x = H2 x y).
  { intros x. unfold ph. destruct (completeness (E x) (BE x) (NE x)) as (s & U & V). cbn [proj1_sig]. split.
    - intros y Hy. assert (Z := U (- H2 x y) (ex_intro _ y (conj Hy eq_refl))). lra.
    - destruct (MinY x) as (y & Hy & A). exists y. split; [exact Hy|]. assert (Z1 := U (- H2 x y) (ex_intro _ y (conj Hy eq_refl))).
      assert (Z2 : s <= - H2 x y) by (apply V; intros v (y' & Hy' & ->); specialize (A y' Hy'); lra). lra. }
  assert (PL : forall x x', ph x <= ph x' + L * Rabs (x - x')).
  { intros x x'. destruct (Pph x') as (_ & y & Hy & Ey). assert (A := proj1 (Pph x) y Hy). assert (B := H x y x' y). rewrite Rminus_eq_0, Rabs_R0, Rplus_0_r in B.
    rewrite Ey. apply Rle_trans with (1 := A). assert (C := Rle_abs (H2 x y - H2 x' y)). unfold H2 in *. lra. }
  assert (CP : forall x, continuity_pt ph x).
  { intros x eps He. exists (eps / (L + 1)). split; [apply Rdiv_lt_0_compat; lra|]. intros z (_ & Hz). unfold dist in *; cbn in *; unfold R_dist in *.
    assert (A := PL z x). assert (B := PL x z). rewrite Rabs_minus_sym in B. assert (0 <= Rabs (z - x)) by apply Rabs_pos.
    assert (D : L * Rabs (z - x) < eps). { apply Rle_lt_trans with ((L + 1) * Rabs (z - x)); [apply Rmult_le_compat_r; lra|]. replace eps with ((L + 1) * (eps / (L + 1))) by (field; lra). apply Rmult_lt_compat_l; lra. }
    apply Rabs_def1; clear -A B D; lra. }
  destruct (continuity_ab_min ph k0 k1 ltac:(lra) (fun c _ => CP c)) as (x & A & Hx). destruct (Pph x) as (_ & y & Hy & Ey).
  exists x, y. split; [auto|]. intros x' y' Hx' Hy'. assert (B := A x' Hx'). assert (C := proj1 (Pph x') y' Hy').
  unfold H2 in Ey, C. rewrite !clamp_id in Ey by auto. rewrite !clamp_id in C by auto. lra.
Qed.
Theorem miranda : exists x y, k0 <= x <= k1 /\ g0 <= y <= g1 /\ f x y = 0 /\ g x y = 0.
Proof.
  destruct near_zero as (C & HC & Nz).
  destruct (attains (fun x y => Rabs (f x y) + Rabs (g x y))) as (x & y & (Hx & Hy) & Mn); [apply Lip_add; apply Lip_abs; auto|].
  exists x, y. split; [exact Hx|]. split; [exact Hy|].
  assert (A := Rabs_pos (f x y)). assert (B := Rabs_pos (g x y)).
  assert (Z : Rabs (f x y) + Rabs (g x y) = 0).
  { destruct (Req_dec (Rabs (f x y) + Rabs (g x y)) 0) as [|N]; [auto|exfalso]. set (e := Rabs (f x y) + Rabs (g x y)) in *. assert (E : 0 < e) by (assert (0 <= e) by (unfold e; lra); destruct (Rle_lt_or_eq_dec 0 e); [assumption|assumption|congruence]).
    destruct (archimed_cor1 (e / (C + 1))) as (n & Hn & Hn'); [apply Rdiv_lt_0_compat; lra|]. destruct (Nz n Hn') as (x' & y' & Hx' & Hy' & D).
    assert (F := Mn x' y' Hx' Hy'). cbv beta in F. assert (NI : 0 < / INR n) by (apply Rinv_0_lt_compat, lt_0_INR; auto).
    assert (C / INR n < e); [|lra]. apply Rle_lt_trans with ((C + 1) * / INR n); [unfold Rdiv; apply Rmult_le_compat_r; lra|]. replace e with ((C + 1) * (e / (C + 1))) by (field; lra). apply Rmult_lt_compat_l; lra. }
  split; [destruct (Req_dec (f x y) 0) as [|N]; [auto|apply Rabs_pos_lt in N; lra]|destruct (Req_dec (g x y) 0) as [|N]; [auto|apply Rabs_pos_lt in N; lra]].
Qed.
End Miranda.
