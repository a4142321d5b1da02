(** * Finite sums: from the model's list folds to real sums, and mean inequalities. *)
From Verif Require Import Fl M_EM Spec RealLemmas.
From Coq Require Import Permutation.
Open Scope R_scope.

Section S.
Context {A : Type}.
Implicit Types (L : list A) (f g h : A -> R).

Lemma sumf_cons f x L : sumf f (x :: L) = f x + sumf f L.
Proof. reflexivity. Qed.
Lemma fsum_map f L : fsum (map (fun x => Fin (f x)) L) = Fin (sumf f L).
Proof.
  induction L as [|x L IH]; [reflexivity|].
  cbn [map fsum]. rewrite IH. reflexivity.
Qed.
Lemma fmap2_map (op : fl -> fl -> fl) (p q : A -> fl) L :
  fmap2 op (map p L) (map q L) = map (fun x => op (p x) (q x)) L.
Proof. induction L as [|x L IH]; [reflexivity|]. cbn. rewrite IH. reflexivity. Qed.
Lemma np_bc_map (op : fl -> fl -> fl) (p q : A -> fl) L :
  np_bc op (map p L) (map q L) = Ret (map (fun x => op (p x) (q x)) L).
Proof. unfold np_bc. rewrite !map_length, Nat.eqb_refl, fmap2_map. reflexivity. Qed.
Lemma np_bc_eq (op : fl -> fl -> fl) a b : length a = length b -> np_bc op a b = Ret (fmap2 op a b).
Proof. intros H. unfold np_bc. rewrite H, Nat.eqb_refl. reflexivity. Qed.
Lemma fmap2_length (op : fl -> fl -> fl) a b : length a = length b -> length (fmap2 op a b) = length a.
Proof. revert b. induction a as [|x a IH]; intros [|y b] H; try discriminate; [reflexivity|]. cbn. rewrite IH; auto. Qed.
Lemma fdot_map f g L :
  fdot (map (fun x => Fin (f x)) L) (map (fun x => Fin (g x)) L) = Fin (sumf (fun x => f x * g x) L).
Proof. unfold fdot. rewrite fmap2_map. cbn [fmul]. apply fsum_map. Qed.
Lemma map_fin_ext (p : A -> fl) f L :
  Forall (fun x => p x = Fin (f x)) L -> map p L = map (fun x => Fin (f x)) L.
Proof. intros H. apply map_ext_in. intros x Hx. rewrite Forall_forall in H. auto. Qed.

Lemma sumf_plus f g L : sumf (fun x => f x + g x) L = sumf f L + sumf g L.
Proof. induction L as [|x L IH]; [unfold sumf; cbn; ring|]. rewrite !sumf_cons, IH. ring. Qed.
Lemma sumf_minus f g L : sumf (fun x => f x - g x) L = sumf f L - sumf g L.
Proof. induction L as [|x L IH]; [unfold sumf; cbn; ring|]. rewrite !sumf_cons, IH. ring. Qed.
Lemma sumf_scal c f L : sumf (fun x => c * f x) L = c * sumf f L.
Proof. induction L as [|x L IH]; [unfold sumf; cbn; ring|]. rewrite !sumf_cons, IH. ring. Qed.
Lemma sumf_ext f g L : Forall (fun x => f x = g x) L -> sumf f L = sumf g L.
Proof.
  induction L as [|x L IH]; intros H; [reflexivity|].
  inversion H; subst. rewrite !sumf_cons. f_equal; auto.
Qed.
Lemma sumf_ext_all f g L : (forall x, f x = g x) -> sumf f L = sumf g L.
Proof. intros H. apply sumf_ext. apply Forall_forall. auto. Qed.
Lemma sumf_le f g L : Forall (fun x => f x <= g x) L -> sumf f L <= sumf g L.
Proof.
  induction L as [|x L IH]; intros H; [unfold sumf; cbn; lra|].
  inversion H; subst. rewrite !sumf_cons. specialize (IH H3). lra.
Qed.
Lemma sumf_nonneg f L : Forall (fun x => 0 <= f x) L -> 0 <= sumf f L.
Proof.
  induction L as [|x L IH]; intros H; [unfold sumf; cbn; lra|].
  inversion H; subst. rewrite sumf_cons. specialize (IH H3). lra.
Qed.
Lemma sumf_pos f L : L <> [] -> Forall (fun x => 0 < f x) L -> 0 < sumf f L.
Proof.
  destruct L as [|x L]; [congruence|]. intros _ H. inversion H; subst.
  rewrite sumf_cons.
  assert (0 <= sumf f L).
  { apply sumf_nonneg. eapply Forall_impl; [|eassumption]. intros a Ha; cbn in Ha; lra. }
  lra.
Qed.
Lemma sumf_perm f L L' : Permutation L L' -> sumf f L = sumf f L'.
Proof.
  induction 1; try reflexivity; rewrite ?sumf_cons in *.
  - rewrite IHPermutation. reflexivity.
  - ring.
  - congruence.
Qed.
Lemma sumf_app f L L' : sumf f (L ++ L') = sumf f L + sumf f L'.
Proof. induction L as [|x L IH]; [unfold sumf; cbn; ring|]. cbn [app]. rewrite !sumf_cons, IH. ring. Qed.
Lemma sumf_pos_mul w f L : Forall (fun x => 0 <= w x) L -> 0 < sumf w L ->
  Forall (fun x => 0 < f x) L -> 0 < sumf (fun x => w x * f x) L.
Proof.
  intros Hw Hs Hf. induction L as [|x L IH]; [unfold sumf in Hs; cbn in Hs; lra|].
  inversion Hw; subst. inversion Hf; subst. rewrite !sumf_cons in *.
  assert (N : 0 <= sumf w L) by (apply sumf_nonneg; assumption).
  destruct (Req_EM_T (sumf w L) 0) as [E|E].
  - assert (0 < w x * f x) by (apply Rmult_lt_0_compat; lra).
    assert (0 <= sumf (fun x => w x * f x) L).
    { apply sumf_nonneg. rewrite Forall_forall in *. intros y Hy.
      apply Rmult_le_pos; [apply H2; assumption | left; apply H4; assumption]. }
    lra.
  - assert (0 < sumf (fun x => w x * f x) L) by (apply IH; auto; lra).
    assert (0 <= w x * f x) by (apply Rmult_le_pos; lra). lra.
Qed.

(** Cauchy-Schwarz for weights: (sum w)^2 <= (sum w f) (sum w / f). *)
Lemma cauchy_harm w f L : Forall (fun x => 0 <= w x) L -> 0 < sumf w L ->
  Forall (fun x => 0 < f x) L ->
  (sumf w L)^2 <= sumf (fun x => w x * f x) L * sumf (fun x => w x * (1 / f x)) L.
Proof.
  intros Hw Hs Hf.
  set (S := sumf w L) in *. set (P := sumf (fun x => w x * f x) L).
  set (H := sumf (fun x => w x * (1 / f x)) L).
  assert (HH : 0 < H).
  { apply sumf_pos_mul; try assumption. eapply Forall_impl; [|exact Hf].
    intros a Ha. cbn in *. apply Rdiv_lt_0_compat; lra. }
  assert (HP : 0 < P) by (apply sumf_pos_mul; assumption).
  set (t := S / H).
  assert (Q : 0 <= P - 2 * t * S + t^2 * H).
  { replace (P - 2 * t * S + t^2 * H) with
      (sumf (fun x => w x * ((f x - t)^2 * (1 / f x))) L).
    - apply sumf_nonneg. rewrite Forall_forall in *. intros x Hx.
      apply Rmult_le_pos; [apply Hw; assumption|]. apply Rmult_le_pos; [apply pow2_ge_0|].
      left. apply Rdiv_lt_0_compat; [lra | apply Hf; assumption].
    - unfold P, S, H. rewrite <- !sumf_scal, <- sumf_minus, <- sumf_plus. apply sumf_ext.
      rewrite Forall_forall in *. intros x Hx. specialize (Hf x Hx). cbn in Hf. field. lra. }
  assert (E : (P - 2 * t * S + t^2 * H) * H = P * H - S^2) by (unfold t; field; lra).
  assert (0 <= (P - 2 * t * S + t^2 * H) * H) by (apply Rmult_le_pos; lra).
  lra.
Qed.

(** General Cauchy-Schwarz: (sum w f)^2 <= (sum w f^2 / h) (sum w h). *)
Lemma cauchy_gen w f h L : Forall (fun x => 0 <= w x) L ->
  Forall (fun x => 0 < h x) L -> 0 < sumf (fun x => w x * h x) L ->
  (sumf (fun x => w x * f x) L)^2
  <= sumf (fun x => w x * ((f x)^2 / h x)) L * sumf (fun x => w x * h x) L.
Proof.
  intros Hw Hh HS.
  set (S := sumf (fun x => w x * f x) L).
  set (P := sumf (fun x => w x * ((f x)^2 / h x)) L).
  set (H := sumf (fun x => w x * h x) L) in *.
  set (t := S / H).
  assert (Q : 0 <= P - 2 * t * S + t^2 * H).
  { replace (P - 2 * t * S + t^2 * H) with
      (sumf (fun x => w x * ((f x - t * h x)^2 * (1 / h x))) L).
    - apply sumf_nonneg. rewrite Forall_forall in *. intros x Hx.
      apply Rmult_le_pos; [apply Hw; assumption|]. apply Rmult_le_pos; [apply pow2_ge_0|].
      left. apply Rdiv_lt_0_compat; [lra | apply Hh; assumption].
    - unfold P, S, H. rewrite <- !sumf_scal, <- sumf_minus, <- sumf_plus. apply sumf_ext.
      rewrite Forall_forall in *. intros x Hx. specialize (Hh x Hx). cbn in Hh. field. lra. }
  assert (E : (P - 2 * t * S + t^2 * H) * H = P * H - S^2) by (unfold t; field; lra).
  assert (0 <= (P - 2 * t * S + t^2 * H) * H) by (apply Rmult_le_pos; lra).
  lra.
Qed.

(** A weighted mean lies between two of the values. *)
Lemma wmean_below w f L c : Forall (fun x => 0 <= w x) L -> 0 < sumf w L ->
  sumf (fun x => w x * f x) L = c * sumf w L -> Exists (fun x => f x <= c) L.
Proof.
  intros Hw Hs E.
  apply Exists_exists.
  destruct (Exists_dec (fun x => f x <= c) L (fun x => Rle_dec (f x) c)) as [D|D].
  - apply Exists_exists in D. exact D.
  - exfalso. apply Forall_Exists_neg in D.
    assert (0 < sumf (fun x => w x * (f x - c)) L).
    { apply sumf_pos_mul; try assumption. eapply Forall_impl; [|exact D]. cbn; intros; lra. }
    assert (sumf (fun x => w x * (f x - c)) L = sumf (fun x => w x * f x) L - c * sumf w L).
    { rewrite <- sumf_scal, <- sumf_minus. apply sumf_ext_all. intros; ring. }
    lra.
Qed.
Lemma wmean_above w f L c : Forall (fun x => 0 <= w x) L -> 0 < sumf w L ->
  sumf (fun x => w x * f x) L = c * sumf w L -> Exists (fun x => c <= f x) L.
Proof.
  intros Hw Hs E.
  destruct (Exists_dec (fun x => c <= f x) L (fun x => Rle_dec c (f x))) as [D|D]; [exact D|].
  exfalso. apply Forall_Exists_neg in D.
  assert (0 < sumf (fun x => w x * (c - f x)) L).
  { apply sumf_pos_mul; try assumption. eapply Forall_impl; [|exact D]. cbn; intros; lra. }
  assert (sumf (fun x => w x * (c - f x)) L = c * sumf w L - sumf (fun x => w x * f x) L).
  { rewrite <- sumf_scal, <- sumf_minus. apply sumf_ext_all. intros; ring. }
  lra.
Qed.
End S.

(** Lists of pairs from two lists. *)
Lemma combine_fst_snd {A B} (a : list A) (b : list B) : length a = length b ->
  map fst (combine a b) = a /\ map snd (combine a b) = b.
Proof.
  revert b; induction a as [|x a IH]; intros [|y b] H; cbn in *; try lia; [auto|].
  destruct (IH b) as [E1 E2]; [lia|]. rewrite E1, E2. auto.
Qed.
Lemma wsum_pairs (L : list (R * R)) :
  wsum (map fst L) (map snd L) = sumf (fun p => fst p * snd p) L.
Proof. induction L as [|x L IH]; [reflexivity|]. cbn. rewrite IH. reflexivity. Qed.
