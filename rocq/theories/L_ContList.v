(** * L_ContList: continuity of the averages over any number of constituents or layers. *)
From Verif Require Import Fl RealLemmas M_Utils M_EM M_Anis M_Array Spec16 Spec21 L_Cont L_ContProg.
Open Scope R_scope.

Definition sume (k : nat) (g : nat -> expr) : expr := fold_right (fun i e => EOp2 OAdd (g i) e) (ELit 0) (seq 0 k).
Lemma ev_sume m env k g : ev m env (sume k g) = fsum (map (fun i => ev m env (g i)) (seq 0 k)).
Proof. unfold sume. induction (seq 0 k) as [|i l IH]; [reflexivity|]. cbn [fold_right ev sem2 map]. rewrite IH. reflexivity. Qed.
Lemma tame_sume m k g : (forall i, tame m (g i)) -> tame m (sume k g).
Proof. intros H. unfold sume. induction (seq 0 k); cbn; auto. Qed.
Lemma opene_sume k g : (forall i, opene (g i) = true) -> opene (sume k g) = true.
Proof. intros H. unfold sume. induction (seq 0 k); cbn; auto. rewrite H. auto. Qed.
Lemma fmap2_nth f : forall a b n, length a = n -> length b = n -> fmap2 f a b = map (fun i => f (nth i a Und) (nth i b Und)) (seq 0 n).
Proof.
  induction a as [|x a IH]; intros [|y b] n La Lb; cbn in *; subst n; try discriminate; [reflexivity|]. cbn [seq map nth]. f_equal.
  rewrite <- seq_shift, map_map. apply IH; [reflexivity|lia].
Qed.
Lemma map_nth_seq (g : fl -> fl) : forall a n, length a = n -> map g a = map (fun i => g (nth i a Und)) (seq 0 n).
Proof. induction a as [|x a IH]; intros n L; cbn in *; subst n; [reflexivity|]. cbn [seq map nth]. f_equal. rewrite <- seq_shift, map_map. apply IH. reflexivity. Qed.
Lemma map_nth_ext (f g : nat -> fl) n : (forall i, (i < n)%nat -> f i = g i) -> map f (seq 0 n) = map g (seq 0 n).
Proof. intros H. apply map_ext_in. intros i Hi. apply in_seq in Hi. apply H. lia. Qed.
Lemma nth_firstn n l i : (i < n)%nat -> nth i (firstn n l) Und = nth i l Und.
Proof.
  intros H. rewrite <- (firstn_skipn n l) at 2. destruct (Nat.lt_ge_cases i (length (firstn n l))) as [L|L]; [rewrite app_nth1 by exact L; reflexivity|].
  rewrite (nth_overflow (firstn n l)) by exact L. rewrite firstn_length in L. symmetry. apply nth_overflow. rewrite firstn_skipn. lia.
Qed.
Lemma nth_skipn n (l : list fl) i : nth i (skipn n l) Und = nth (n + i) l Und.
Proof. revert l. induction n; intros l; [reflexivity|]. destruct l as [|x l]; cbn; [destruct i; reflexivity|]. apply IHn. Qed.

(** ** Voigt-Reuss-Hill, [EM.VRH]: n volumes and n moduli *)
Definition vrh (n : nat) (l : list fl) : outcome (list fl) :=
  if Nat.eqb (length l) (n + n) then out3 (EM_VRH (firstn n l) (skipn n l)) else Unknown.
Definition p_vrh (n : nat) : prog :=
  PLet (sume n (fun i => EOp2 OMul (EVar i) (EVar (n + i))))
 (PLet (EOp2 ODivN (ELit 1) (sume n (fun i => EOp2 OMul (EVar i) (EOp2 ODivN (ELit 1) (EVar (n + i))))))
 (PLet (EOp2 OMul (ELit (1/2)) (EOp2 OAdd (EVar (S (n + n))) (EVar (n + n))))
 (PRet [EVar (n + n); EVar (S (n + n)); EVar (S (S (n + n)))]))).
Lemma app_one_nth (l : list fl) x k : length l = k -> nth k (l ++ [x]) Und = x.
Proof. intros <-. rewrite app_nth2, Nat.sub_diag by lia. reflexivity. Qed.
Lemma bind_congr B e e' (k h : fl -> outcome B) : e = e' -> (forall x, k x = h x) -> bind e k = bind e' h.
Proof. intros <- E; destruct e; cbn; auto. Qed.
Lemma vrh_run m n l : length l = (n + n)%nat -> vrh n l = run m (p_vrh n) l.
Proof.
  intros L. unfold vrh. rewrite L, Nat.eqb_refl. unfold EM_VRH. assert (L1 : length (firstn n l) = n) by (rewrite firstn_length; lia). assert (L2 : length (skipn n l) = n) by (rewrite skipn_length; lia).
  rewrite L1, L2, Nat.eqb_refl. cbn [negb]. unfold out3. cbn [run p_vrh].
  assert (E1 : fdot (firstn n l) (skipn n l) = ev m l (sume n (fun i => EOp2 OMul (EVar i) (EVar (n + i))))).
  { rewrite ev_sume. unfold fdot. rewrite (fmap2_nth fmul _ _ n L1 L2). f_equal. apply map_nth_ext. intros i Hi. rewrite nth_firstn, nth_skipn by exact Hi. reflexivity. }
  transitivity (let! x := fdot (firstn n l) (skipn n l) in call! (a, b, c) := (let! M_r := fdiv NumPy (Fin 1) (fdot (firstn n l) (map (fun x => fdiv NumPy (Fin 1) x) (skipn n l))) in
     let! M_h := fmul (Fin (1/2)) (fadd M_r x) in Ret (x, M_r, M_h)) in rets [a; b; c]); [destruct (fdot _ _); reflexivity|].
  apply bind_congr; [exact E1|]. intros x.
  assert (E2 : fdiv NumPy (Fin 1) (fdot (firstn n l) (map (fun y => fdiv NumPy (Fin 1) y) (skipn n l)))
    = ev m (l ++ [x]) (EOp2 ODivN (ELit 1) (sume n (fun i => EOp2 OMul (EVar i) (EOp2 ODivN (ELit 1) (EVar (n + i))))))).
  { cbn [ev sem2]. f_equal. rewrite ev_sume. unfold fdot. rewrite (fmap2_nth fmul _ _ n L1) by (rewrite map_length; exact L2). f_equal. apply map_nth_ext.
    intros i Hi. cbn [ev sem2]. rewrite nth_firstn, !app_nth1 by lia. f_equal.
    rewrite (nth_indep _ Und (fdiv NumPy (Fin 1) Und)) by (rewrite map_length, L2; exact Hi). rewrite (map_nth (fun y => fdiv NumPy (Fin 1) y)), nth_skipn. reflexivity. }
  rewrite E2. set (e2 := ev m (l ++ [x]) _). destruct e2 as [r2| | | |]; cbn [bind call]; try reflexivity;
  match goal with |- context [(l ++ [x]) ++ [?y]] => assert (Z1 : nth (S (n + n)) ((l ++ [x]) ++ [y]) Und = y) by (apply app_one_nth; rewrite app_length; cbn; lia);
     assert (Z0 : nth (n + n) ((l ++ [x]) ++ [y]) Und = x) by (rewrite app_nth1 by (rewrite app_length; cbn; lia); apply app_one_nth; exact L);
     cbn [ev sem2 nth]; rewrite Z1, Z0; set (h := fmul (Fin (1/2)) (fadd y x)); destruct h as [h0| | | |] eqn:Eh; cbn [bind call map ev]; try reflexivity;
     rewrite !(app_nth1 ((l ++ [x]) ++ [y])) by (rewrite !app_length; cbn; lia); rewrite Z1, Z0; rewrite app_one_nth by (rewrite !app_length; cbn; lia); reflexivity end.
Qed.
Lemma cont_vrh n : continuous_fn (vrh n).
Proof.
  apply (tames_continuous NumPy (n + n) (p_vrh n)); [intros; apply vrh_run; auto|intros l H; unfold vrh; apply Nat.eqb_neq in H; rewrite H; reflexivity|].
  cbn [p_vrh tames tame fold_right is_pow]. repeat split; auto; apply tame_sume; cbn; auto.
Qed.
Lemma robust_vrh n : robust_fn (vrh n).
Proof.
  apply (openp_robust NumPy (n + n) (p_vrh n)); [intros; apply vrh_run; auto|intros l H; unfold vrh; apply Nat.eqb_neq in H; rewrite H; reflexivity|].
  cbn [p_vrh openp opene usesp uses existsb forallb is_pow negb andb orb open1]. rewrite !opene_sume by reflexivity. rewrite !Nat.eqb_refl. cbn [orb andb]. rewrite ?orb_true_r. reflexivity.
Qed.

(** ** Backus average, [Anisotropy.Backus]: n thicknesses, n Lame parameters and n shear moduli *)
Definition backus (n : nat) (l : list fl) : outcome (list fl) :=
  if Nat.eqb (length l) (n + n + n) then out5 (Anis_Backus (firstn n l) (firstn n (skipn n l)) (skipn (n + n) l)) else Unknown.
Section Backus.
Variable n : nat.
Let N := (n + n + n)%nat.
Definition bw (i : nat) : expr := EOp2 ODivN (EVar i) (EVar N).
Definition b_m (i : nat) : expr := EOp2 OAdd (EVar (n + i)) (EOp2 OMul (ELit 2) (EVar (n + n + i))).
Definition b_dot (g : nat -> expr) : expr := sume n (fun i => EOp2 OMul (bw i) (g i)).
Definition b33 : expr := b_dot (fun i => EOp2 ODivN (ELit 1) (b_m i)).
Definition b44 : expr := b_dot (fun i => EOp2 ODivN (ELit 1) (EVar (n + n + i))).
Definition b66 : expr := b_dot (fun i => EVar (n + n + i)).
Definition br : expr := b_dot (fun i => EOp2 ODivN (EVar (n + i)) (b_m i)).
Definition b11 : expr := b_dot (fun i => EOp2 ODivN (EOp2 OMul (EOp2 OMul (ELit 4) (EVar (n + n + i))) (EOp2 OAdd (EVar (n + i)) (EVar (n + n + i)))) (b_m i)).
Definition p_backus : prog :=
  PLet (sume n EVar)
 (PLet (EOp2 ODivN (ELit 1) b33)
 (PLet (EOp2 ODivN (ELit 1) b44)
 (PLet (EOp2 OMul (EOp2 ODivN (ELit 1) b33) br)
 (PLet (EOp2 OAdd b11 (EOp2 OMul (EOp2 ODivN (ELit 1) b33) (EOp1 (OPown 2) br)))
 (PRet [EVar (S (S (S (S N)))); EVar (S N); EVar (S (S (S N))); EVar (S (S N)); b66]))))).
Variables (m : mode) (l : list fl) (s : fl).
Hypothesis L : length l = N.
Let V := firstn n l.
Let lam := firstn n (skipn n l).
Let G := skipn (n + n) l.
Lemma bL1 : length V = n. Proof. unfold V. rewrite firstn_length. unfold N in L. lia. Qed.
Lemma bL2 : length lam = n. Proof. unfold lam. rewrite firstn_length, skipn_length. unfold N in L. lia. Qed.
Lemma bL3 : length G = n. Proof. unfold G. rewrite skipn_length. unfold N in L. lia. Qed.
Lemma nV i : (i < n)%nat -> nth i V Und = nth i l Und.
Proof. apply nth_firstn. Qed.
Lemma nlam i : (i < n)%nat -> nth i lam Und = nth (n + i) l Und.
Proof. intros H. unfold lam. rewrite nth_firstn by exact H. apply nth_skipn. Qed.
Lemma nG i : nth i G Und = nth (n + n + i) l Und.
Proof. apply nth_skipn. Qed.
(** The dot products with the normalised thicknesses, whatever has been appended to the variables. *)
Lemma b_dot_eq xs g more : length xs = n -> (forall i, (i < n)%nat -> ev m (l ++ s :: more) (g i) = nth i xs Und) ->
  ev m (l ++ s :: more) (b_dot g) = fdot (map (fun v => fdiv NumPy v s) V) xs.
Proof.
  intros Lx H. unfold b_dot. rewrite ev_sume. unfold fdot. rewrite (fmap2_nth fmul _ _ n) by (rewrite ?map_length; auto; apply bL1). f_equal. apply map_nth_ext. intros i Hi.
  cbn [ev sem2 bw]. rewrite H by exact Hi. f_equal. rewrite (nth_indep (map (fun v => fdiv NumPy v s) V) Und (fdiv NumPy Und s)) by (rewrite map_length, bL1; exact Hi).
  rewrite (map_nth (fun v => fdiv NumPy v s)), nV by exact Hi. rewrite app_nth1 by (rewrite L; unfold N; lia). f_equal. rewrite app_nth2 by (rewrite L; lia). rewrite L, Nat.sub_diag. reflexivity.
Qed.
Ltac bn := rewrite ?(fmap2_nth _ lam G n bL2 bL3), ?map_length, ?seq_length; auto.
Lemma nth_map_seq (f : nat -> fl) i : (i < n)%nat -> nth i (map f (seq 0 n)) Und = f i.
Proof. intros H. rewrite (nth_indep (map f (seq 0 n)) Und (f O)) by (rewrite map_length, seq_length; exact H). rewrite map_nth, seq_nth by exact H. reflexivity. Qed.
Lemma nlam' more i : (i < n)%nat -> nth (n + i) (l ++ s :: more) Und = nth i lam Und.
Proof. intros H. rewrite nlam by exact H. apply app_nth1. rewrite L. unfold N. lia. Qed.
Lemma nG' more i : (i < n)%nat -> nth (n + n + i) (l ++ s :: more) Und = nth i G Und.
Proof. intros H. rewrite nG. apply app_nth1. rewrite L. unfold N. lia. Qed.
Ltac bgo := apply b_dot_eq; [bn|]; let i := fresh in let H := fresh in intros i H; cbn [ev sem2 b_m]; rewrite ?(fmap2_nth _ lam G n bL2 bL3), ?nth_map_seq, ?nlam', ?nG' by exact H; reflexivity.
Lemma b33_eq more : ev m (l ++ s :: more) b33 = fdot (map (fun v => fdiv NumPy v s) V) (fmap2 (fun l g => fdiv NumPy (Fin 1) (fadd l (fmul (Fin 2) g))) lam G).
Proof. bgo. Qed.
Lemma br_eq more : ev m (l ++ s :: more) br = fdot (map (fun v => fdiv NumPy v s) V) (fmap2 (fun l g => fdiv NumPy l (fadd l (fmul (Fin 2) g))) lam G).
Proof. bgo. Qed.
Lemma b11_eq more : ev m (l ++ s :: more) b11 = fdot (map (fun v => fdiv NumPy v s) V) (fmap2 (fun l g => fdiv NumPy (fmul (fmul (Fin 4) g) (fadd l g)) (fadd l (fmul (Fin 2) g))) lam G).
Proof. bgo. Qed.
Lemma b44_eq more : ev m (l ++ s :: more) b44 = fdot (map (fun v => fdiv NumPy v s) V) (map (fun g => fdiv NumPy (Fin 1) g) G).
Proof.
  apply b_dot_eq; [rewrite map_length; apply bL3|]. intros i H. cbn [ev sem2]. rewrite nG' by exact H. rewrite (nth_indep (map (fun g => fdiv NumPy (Fin 1) g) G) Und (fdiv NumPy (Fin 1) Und)) by (rewrite map_length, bL3; exact H).
  rewrite (map_nth (fun g => fdiv NumPy (Fin 1) g)). reflexivity.
Qed.
Lemma b66_eq more : ev m (l ++ s :: more) b66 = fdot (map (fun v => fdiv NumPy v s) V) G.
Proof. apply b_dot_eq; [apply bL3|]. intros i H. cbn [ev]. apply nG', H. Qed.
End Backus.
Lemma call_bind_ B C e (k : fl -> outcome B) (h : B -> outcome C) : call (bind e k) h = bind e (fun x => call (k x) h).
Proof. destruct e; reflexivity. Qed.
Lemma sume_V_eq n m l : length l = (n + n + n)%nat -> ev m l (sume n EVar) = fsum (firstn n l).
Proof.
  intros L. rewrite ev_sume. f_equal. transitivity (map (fun x : fl => x) (firstn n l)); [|apply map_id].
  rewrite (map_nth_seq (fun x => x) (firstn n l) n) by (rewrite firstn_length; lia). apply map_nth_ext. intros i H. rewrite nth_firstn by exact H. reflexivity.
Qed.
Lemma nth_app_k (l : list fl) x more k i : length l = k -> nth (k + i) (l ++ x :: more) Und = nth i (x :: more) Und.
Proof. intros <-. rewrite app_nth2 by lia. f_equal. lia. Qed.
Lemma backus_run m n l : length l = (n + n + n)%nat -> backus n l = run m (p_backus n) l.
Proof.
  intros L. unfold backus. rewrite L, Nat.eqb_refl. unfold Anis_Backus, out5. rewrite call_bind_. cbn [run p_backus]. apply bind_congr; [symmetry; apply sume_V_eq, L|]. intros s.
  assert (L2 := bL2 n l L). assert (L3 := bL3 n l L). unfold np_map2, np_dot. rewrite L2, L3, Nat.eqb_refl. rewrite !call_ret.
  assert (M : forall f, length (fmap2 f (firstn n (skipn n l)) (skipn (n + n) l)) = n) by (intros f; rewrite (fmap2_nth f _ _ n L2 L3), map_length, seq_length; reflexivity).
  assert (L1 : length (map (fun v => fdiv NumPy v s) (firstn n l)) = n) by (rewrite map_length; apply (bL1 n l L)).
  assert (L4 : length (map (fun g => fdiv NumPy (Fin 1) g) (skipn (n + n) l)) = n) by (rewrite map_length; exact L3).
  rewrite !M, L1, L4, Nat.eqb_refl. rewrite !call_ret. cbn [ev sem1 sem2].
  rewrite <- (b33_eq n m l s L []), <- (br_eq n m l s L []), <- (b11_eq n m l s L []), <- (b44_eq n m l s L []), <- (b66_eq n m l s L []).
  rewrite call_bind_. apply bind_congr; [reflexivity|]. intros c33. rewrite ?call_ret, ?call_bind_. rewrite <- ?app_assoc. cbn [app].
  apply bind_congr; [rewrite !(b44_eq n m l s L); reflexivity|]. intros c44. rewrite ?call_ret, ?call_bind_. rewrite <- ?app_assoc. cbn [app].
  apply bind_congr; [rewrite !(b33_eq n m l s L), !(br_eq n m l s L); reflexivity|]. intros c13. rewrite ?call_ret, ?call_bind_. rewrite <- ?app_assoc. cbn [app].
  apply bind_congr; [rewrite !(b33_eq n m l s L), !(br_eq n m l s L), !(b11_eq n m l s L); reflexivity|]. intros c11. rewrite ?call_ret. rewrite <- ?app_assoc. cbn [app map ev].
  rewrite !(b66_eq n m l s L).
  assert (A : forall i, nth (n + n + n + i) (l ++ [s; c33; c44; c13; c11]) Und = nth i [s; c33; c44; c13; c11] Und) by (intros; apply nth_app_k, L).
  assert (A1 := A 1%nat). assert (A2 := A 2%nat). assert (A3 := A 3%nat). assert (A4 := A 4%nat). rewrite <- !plus_n_Sm, <- plus_n_O in *. rewrite A1, A2, A3, A4. reflexivity.
Qed.
Lemma tame_b_dot m n g : (forall i, tame m (g i)) -> tame m (b_dot n g).
Proof. intros H. apply tame_sume. cbn. auto. Qed.
Lemma opene_b_dot n g : (forall i, opene (g i) = true) -> opene (b_dot n g) = true.
Proof. intros H. apply opene_sume. intros i. cbn. auto. Qed.
Lemma cont_backus n : continuous_fn (backus n).
Proof.
  apply (tames_continuous NumPy (n + n + n) (p_backus n)); [intros; apply backus_run; auto|intros l H; unfold backus; apply Nat.eqb_neq in H; rewrite H; reflexivity|].
  cbn [p_backus tames tame fold_right is_pow]. repeat match goal with |- _ /\ _ => split end; auto; try (apply tame_b_dot; cbn; tauto). apply tame_sume; cbn; tauto.
Qed.
(** The sum of the thicknesses shows in every result, provided there is a layer. *)
Lemma uses_sume k g n i : (i < n)%nat -> uses k (g i) = true -> uses k (sume n g) = true.
Proof.
  intros Hi U. unfold sume. assert (I0 : In i (seq 0 n)) by (apply in_seq; lia). induction (seq 0 n) as [|j s IH]; [contradiction|]. cbn. destruct I0 as [->|I0]; [rewrite U; reflexivity|]. rewrite IH by exact I0. apply orb_true_r.
Qed.
Lemma robust_backus n : robust_fn (backus (S n)).
Proof.
  set (k := S n). apply (openp_robust NumPy (k + k + k) (p_backus k)); [intros; apply backus_run; auto|intros l H; unfold backus; apply Nat.eqb_neq in H; rewrite H; reflexivity|].
  assert (U : forall g, uses (k + k + k) (b_dot k g) = true). { intros g. apply uses_sume with (i := O); [unfold k; lia|]. cbn [uses bw]. rewrite Nat.eqb_refl. cbn [orb]. rewrite orb_true_r. reflexivity. }
  cbn [p_backus openp opene usesp uses existsb forallb is_pow is_pow0 negb andb orb open1]. rewrite !opene_sume by reflexivity. unfold b33, b44, b66, br, b11. rewrite !U. rewrite !opene_b_dot by reflexivity.
  rewrite !Nat.eqb_refl. cbn [orb andb]. rewrite ?orb_true_r. reflexivity.
Qed.
