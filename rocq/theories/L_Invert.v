(** * L_Invert: continuous strictly monotone curves can be read backwards *)
From Coq Require Import Classical.
From Verif Require Import Fl RealLemmas Spec21 Spec26.
Open Scope R_scope.

Definition convex (D : R -> Prop) : Prop := forall x y z, D x -> D y -> x <= z <= y -> D z.
Definition rcont (D : R -> Prop) (g : R -> R) : Prop :=
  forall x, D x -> forall eps, 0 < eps -> exists d, 0 < d /\ forall x', D x' -> Rabs (x' - x) < d -> Rabs (g x' - g x) < eps.
Definition incr (D : R -> Prop) (g : R -> R) : Prop := forall x y, D x -> D y -> x < y -> g x < g y.
Definition decr (D : R -> Prop) (g : R -> R) : Prop := forall x y, D x -> D y -> x < y -> g y < g x.

Lemma clamp_near a b x x' : a <= b -> Rabs (Rmax a (Rmin b x') - Rmax a (Rmin b x)) <= Rabs (x' - x).
Proof. intros H. unfold Rmax, Rmin, Rabs. repeat destruct (Rle_dec _ _); repeat destruct (Rcase_abs _); lra. Qed.
Lemma ivt g a b y : a <= b -> rcont (seg a b) g -> g a <= y <= g b \/ g b <= y <= g a -> exists x, seg a b x /\ g x = y.
Proof.
  intros L C H. set (cl := fun x => Rmax a (Rmin b x)). assert (R : forall x, seg a b (cl x)).
  { intros x. unfold seg, cl, Rmax, Rmin. repeat destruct (Rle_dec _ _); lra. }
  assert (Ca : cl a = a) by (unfold cl, Rmax, Rmin; repeat destruct (Rle_dec _ _); lra).
  assert (Cb : cl b = b) by (unfold cl, Rmax, Rmin; repeat destruct (Rle_dec _ _); lra).
  set (h := fun x => g (cl x) - y).
  assert (Ch : continuity h).
  { intros x eps Heps. destruct (C (cl x) (R x) eps Heps) as (d & Hd & N). exists d. split; [exact Hd|]. intros x' [_ X].
    unfold dist, h in *. cbn in *. unfold R_dist in *. replace (g (cl x') - y - (g (cl x) - y)) with (g (cl x') - g (cl x)) by ring.
    apply N; auto. eapply Rle_lt_trans; [apply clamp_near, L|exact X]. }
  destruct (IVT_cor h a b Ch L) as (z & Hz & Ez).
  { unfold h. rewrite Ca, Cb. destruct H as [H|H].
    - assert (0 <= (y - g a) * (g b - y)) by (apply Rmult_le_pos; lra). lra.
    - assert (0 <= (g a - y) * (y - g b)) by (apply Rmult_le_pos; lra). lra. }
  exists (cl z). split; [apply R|]. unfold h in Ez. lra.
Qed.
Lemma rcont_sub (D D' : R -> Prop) g : (forall x, D' x -> D x) -> rcont D g -> rcont D' g.
Proof. intros S C x X eps He. destruct (C x (S x X) eps He) as (d & Hd & N). exists d. split; auto. Qed.
Lemma rcont_opp D g : rcont D g -> rcont D (fun x => - g x).
Proof.
  intros C x X eps He. destruct (C x X eps He) as (d & Hd & N). exists d. split; auto. intros x' X' L.
  replace (- g x' - - g x) with (- (g x' - g x)) by ring. rewrite Rabs_Ropp. auto.
Qed.
Lemma attained D g x1 x2 y : convex D -> rcont D g -> D x1 -> D x2 -> g x1 <= y <= g x2 -> exists x, D x /\ g x = y.
Proof.
  intros V C H1 H2 H. destruct (Rle_dec x1 x2) as [L|L].
  - destruct (ivt g x1 x2 y L) as (x & X & Ex); auto. { eapply rcont_sub; [|exact C]. intros z Z. apply (V x1 x2); auto. }
    exists x. split; auto. apply (V x1 x2); auto.
  - destruct (ivt g x2 x1 y) as (x & X & Ex); auto; [lra| |]. { eapply rcont_sub; [|exact C]. intros z Z. apply (V x2 x1); auto. }
    exists x. split; auto. apply (V x2 x1); auto.
Qed.
(** Values close to [g x] belong to arguments close to [x]. *)
Lemma incr_stable D g : convex D -> incr D g -> forall x, D x -> forall eps, 0 < eps -> exists d, 0 < d /\
  forall x', D x' -> Rabs (g x' - g x) < d -> Rabs (x' - x) < eps.
Proof.
  intros V M x X eps He.
  assert (A : exists d, 0 < d /\ forall x', D x' -> x + eps <= x' -> d <= g x' - g x).
  { destruct (classic (D (x + eps))) as [P|P].
    - exists (g (x + eps) - g x). assert (g x < g (x + eps)) by (apply M; auto; lra). split; [lra|]. intros x' X' L.
      destruct (Req_dec x' (x + eps)) as [->|N]; [lra|]. assert (g (x + eps) < g x') by (apply M; auto; lra). lra.
    - exists 1. split; [lra|]. intros x' X' L. exfalso. apply P, (V x x'); auto; lra. }
  assert (B : exists d, 0 < d /\ forall x', D x' -> x' <= x - eps -> d <= g x - g x').
  { destruct (classic (D (x - eps))) as [P|P].
    - exists (g x - g (x - eps)). assert (g (x - eps) < g x) by (apply M; auto; lra). split; [lra|]. intros x' X' L.
      destruct (Req_dec x' (x - eps)) as [->|N]; [lra|]. assert (g x' < g (x - eps)) by (apply M; auto; lra). lra.
    - exists 1. split; [lra|]. intros x' X' L. exfalso. apply P, (V x' x); auto; lra. }
  destruct A as (d1 & P1 & A), B as (d2 & P2 & B). exists (Rmin d1 d2). split; [apply Rmin_glb_lt; auto|].
  intros x' X' N. assert (Rmin d1 d2 <= d1) by apply Rmin_l. assert (Rmin d1 d2 <= d2) by apply Rmin_r. apply Rabs_def2 in N. apply Rabs_def1.
  - apply Rnot_le_lt. intros L. specialize (A x' X' ltac:(lra)). lra.
  - apply Rnot_le_lt. intros L. specialize (B x' X' ltac:(lra)). lra.
Qed.
Lemma decr_stable D g : convex D -> decr D g -> forall x, D x -> forall eps, 0 < eps -> exists d, 0 < d /\
  forall x', D x' -> Rabs (g x' - g x) < d -> Rabs (x' - x) < eps.
Proof.
  intros V M x X eps He. destruct (incr_stable D (fun x => - g x) V) with (x := x) (eps := eps) as (d & Hd & N); auto.
  { intros a b A B L. specialize (M a b A B L). lra. }
  exists d. split; auto. intros x' X' L. apply N; auto. replace (- g x' - - g x) with (- (g x' - g x)) by ring. rewrite Rabs_Ropp. auto.
Qed.

Lemma reads_back_mono (F : fl -> outcome fl) D E g : convex D -> (forall x, D x -> F (Fin x) = Ret (Fin (g x))) -> rcont D g ->
  incr D g \/ decr D g -> (forall y, E y <-> exists x1 x2, D x1 /\ D x2 /\ g x1 <= y <= g x2) -> reads_back F D E.
Proof.
  intros V HF C M HE.
  assert (ST : forall x, D x -> forall eps, 0 < eps -> exists d, 0 < d /\ forall x', D x' -> Rabs (g x' - g x) < d -> Rabs (x' - x) < eps).
  { destruct M; [apply incr_stable|apply decr_stable]; auto. }
  split.
  - intros x X. exists (g x). split; [|apply HF, X]. apply HE. exists x, x. repeat split; auto; lra.
  - intros y Y. apply HE in Y as (x1 & x2 & X1 & X2 & B). destruct (attained D g x1 x2 y V C X1 X2 B) as (x & X & <-).
    exists x. split; [exact X|]. split; [apply HF, X|]. split.
    + intros x' X' Ex. rewrite HF in Ex by exact X'. injection Ex as Ex. destruct (Rtotal_order x' x) as [L|[L|L]]; auto; exfalso;
        destruct M as [M|M]; (specialize (M _ _ X' X L) || specialize (M _ _ X X' L)); lra.
    + intros eps He. destruct (ST x X eps He) as (d & Hd & N). exists d. split; auto. intros x' y' X' Ex. rewrite HF in Ex by exact X'. injection Ex as <-. apply N, X'.
Qed.

Lemma within_refl d l : 0 < d -> within d l l.
Proof. intros H. induction l; constructor; auto. replace (a - a) with 0 by ring. rewrite Rabs_R0. exact H. Qed.
Lemma within_at d pre x x' post : 0 < d -> Rabs (x' - x) < d -> within d (pre ++ x :: post) (pre ++ x' :: post).
Proof. intros H L. apply Forall2_app; [apply within_refl, H|]. constructor; [exact L|apply within_refl, H]. Qed.
Lemma within_nth d k : forall l l' x x', within d l l' -> nth_error l k = Some x -> nth_error l' k = Some x' -> Rabs (x' - x) < d.
Proof.
  induction k as [|k IH]; intros l l' x x' W A B; destruct W; cbn in A, B; try discriminate.
  - injection A as <-. injection B as <-. assumption.
  - eapply IH; eauto.
Qed.
(** One argument of a continuous function varied, one result kept. *)
Lemma curve_cont f P pre post k (D : R -> Prop) g : continuous_on P f -> (forall x, D x -> P (pre ++ x :: post)) ->
  (forall x, D x -> exists ys, f (map Fin (pre ++ x :: post)) = Ret (map Fin ys) /\ nth_error ys k = Some (g x)) -> rcont D g.
Proof.
  intros C HP HF x X eps He. destruct (HF x X) as (ys & E & N). destruct (C _ _ (HP x X) E eps He) as (d & Hd & W).
  exists d. split; [exact Hd|]. intros x' X' L. destruct (HF x' X') as (ys' & E' & N').
  eapply within_nth; [apply (W (pre ++ x' :: post) ys'); [apply within_at; auto|exact E']| |]; eauto.
Qed.

Lemma pt_rcont (D : R -> Prop) g : (forall x, D x -> continuity_pt g x) -> rcont D g.
Proof.
  intros C x X eps He. destruct (C x X eps He) as (d & Hd & N). exists d. split; [exact Hd|]. intros x' X' L.
  destruct (Req_dec x' x) as [->|NE]; [rewrite Rminus_diag_eq, Rabs_R0 by reflexivity; exact He|].
  apply N. split; [split; [exact I|auto]|exact L].
Qed.

(** ** Ranges *)
Lemma convex_seg a b : convex (seg a b). Proof. unfold convex, seg. intros. lra. Qed.
Lemma convex_oseg a b : convex (oseg a b). Proof. unfold convex, oseg. intros. lra. Qed.
Lemma convex_rseg a b : convex (rseg a b). Proof. unfold convex, rseg. intros. lra. Qed.
Lemma convex_lseg a b : convex (lseg a b). Proof. unfold convex, lseg. intros. lra. Qed.
Lemma convex_ray a : convex (ray a). Proof. unfold convex, ray. intros. lra. Qed.
Lemma incr_le (D : R -> Prop) g x y : incr D g -> D x -> D y -> x <= y -> g x <= g y.
Proof. intros M X Y L. destruct (Req_dec x y) as [->|N]; [lra|]. left. apply M; auto. lra. Qed.
Lemma decr_le (D : R -> Prop) g x y : decr D g -> D x -> D y -> x <= y -> g y <= g x.
Proof. intros M X Y L. destruct (Req_dec x y) as [->|N]; [lra|]. left. apply M; auto. lra. Qed.
Lemma range_incr a b g y : a <= b -> incr (seg a b) g -> seg (g a) (g b) y <-> exists x1 x2, seg a b x1 /\ seg a b x2 /\ g x1 <= y <= g x2.
Proof.
  intros L M. split.
  - intros Y. exists a, b. unfold seg in *. lra.
  - intros (x1 & x2 & X1 & X2 & Y).
    assert (g a <= g x1) by (apply (incr_le (seg a b)); auto; unfold seg in *; lra).
    assert (g x2 <= g b) by (apply (incr_le (seg a b)); auto; unfold seg in *; lra). unfold seg. lra.
Qed.
Lemma range_decr a b g y : a <= b -> decr (seg a b) g -> seg (g b) (g a) y <-> exists x1 x2, seg a b x1 /\ seg a b x2 /\ g x1 <= y <= g x2.
Proof.
  intros L M. split.
  - intros Y. exists b, a. unfold seg in *. lra.
  - intros (x1 & x2 & X1 & X2 & Y).
    assert (g b <= g x1) by (apply (decr_le (seg a b)); auto; unfold seg in *; lra).
    assert (g x2 <= g a) by (apply (decr_le (seg a b)); auto; unfold seg in *; lra). unfold seg. lra.
Qed.
Lemma seg_incr F a b g : a <= b -> (forall x, seg a b x -> F (Fin x) = Ret (Fin (g x))) -> rcont (seg a b) g -> incr (seg a b) g ->
  reads_back F (seg a b) (seg (g a) (g b)).
Proof. intros L HF C M. apply (reads_back_mono F _ _ g); auto using convex_seg. intros y. apply range_incr; auto. Qed.
Lemma seg_decr F a b g : a <= b -> (forall x, seg a b x -> F (Fin x) = Ret (Fin (g x))) -> rcont (seg a b) g -> decr (seg a b) g ->
  reads_back F (seg a b) (seg (g b) (g a)).
Proof. intros L HF C M. apply (reads_back_mono F _ _ g); auto using convex_seg. intros y. apply range_decr; auto. Qed.
(** When every value of [E] is attained, only that the values lie in [E] is left to show. *)
Lemma reads_back_onto (F : fl -> outcome fl) D (E : R -> Prop) g : convex D -> (forall x, D x -> F (Fin x) = Ret (Fin (g x))) ->
  incr D g \/ decr D g -> (forall x, D x -> E (g x)) -> (forall y, E y -> exists x, D x /\ g x = y) -> reads_back F D E.
Proof.
  intros V HF M HE ON.
  assert (ST : forall x, D x -> forall eps, 0 < eps -> exists d, 0 < d /\ forall x', D x' -> Rabs (g x' - g x) < d -> Rabs (x' - x) < eps).
  { destruct M; [apply incr_stable|apply decr_stable]; auto. }
  split.
  - intros x X. exists (g x). split; [apply HE, X|apply HF, X].
  - intros y Y. destruct (ON y Y) as (x & X & <-).
    exists x. split; [exact X|]. split; [apply HF, X|]. split.
    + intros x' X' Ex. rewrite HF in Ex by exact X'. injection Ex as Ex. destruct (Rtotal_order x' x) as [L|[L|L]]; auto; exfalso;
        destruct M as [M|M]; (specialize (M _ _ X' X L) || specialize (M _ _ X X' L)); lra.
    + intros eps He. destruct (ST x X eps He) as (d & Hd & N). exists d. split; auto. intros x' y' X' Ex. rewrite HF in Ex by exact X'. injection Ex as <-. apply N, X'.
Qed.
