(** * C92: samples picked, sorted, cut and joined before or after the calculation. *)
From Coq Require Import Permutation.
From Verif Require Import Fl M_Array M_ArrayFns Spec16 Spec28 L_Array L_Pick.
Open Scope fl_scope.

(** Whatever samples are picked, in whatever order and however often, the call on the picked samples has the outcome of the
    whole call with the same samples picked: the same numbers, or the same exception. *)
Theorem C92_pick : forall m p n sel env,
  straight p = true -> all_full n env -> (forall i, In i sel -> (i < n)%nat) ->
  run_arr m p (map (pick sel) env) = results (pick sel) (run_arr m p env).
Proof. intros m p n sel env S F H. apply (pick_run m n sel H p S env). apply all_fulls, F. Qed.
Print Assumptions C92_pick.

(** In particular the order of the samples does not matter: with [sel] a permutation the results are permuted alike. *)
Theorem C92_order : forall m p n sel env out,
  straight p = true -> all_full n env -> Permutation sel (seq 0 n) -> run_arr m p env = Ret out ->
  run_arr m p (map (pick sel) env) = Ret (map (pick sel) out) /\
  forall l, In (VA l) out -> Permutation (map (fun i => nth i l Und) sel) l.
Proof.
  intros m p n sel env out S F P E.
  assert (H : forall i, In i sel -> (i < n)%nat) by (intros i Q; apply (Permutation_in _ P) in Q; apply in_seq in Q; lia).
  split; [rewrite (C92_pick m p n sel env S F H), E; reflexivity|].
  intros l Q. assert (L : length l = n) by (apply (full_run m n sel H p S env out (all_fulls n env F) E (VA l) Q)).
  apply (Permutation_map (fun i => nth i l Und)) in P. rewrite (pick_firstn n n l L (le_n n)) in P. rewrite <- L, firstn_all in P. exact P.
Qed.
Print Assumptions C92_order.

(** A log cut at any sample: the two parts give the two parts of the results, and joined the whole. *)
Lemma before_pick k n v : fulln n v -> (k <= n)%nat -> before k v = pick (seq 0 k) v.
Proof. destruct v as [x|l]; [reflexivity|]. intros L H. cbn [before pick]. rewrite (pick_firstn k n) by auto. reflexivity. Qed.
Lemma after_pick k n v : fulln n v -> (k <= n)%nat -> after k v = pick (seq k (n - k)) v.
Proof. destruct v as [x|l]; [reflexivity|]. intros L H. cbn [after pick]. rewrite (pick_skipn k n) by auto. reflexivity. Qed.
Theorem C92_cut : forall m p n k env,
  straight p = true -> all_full n env -> (k <= n)%nat ->
  run_arr m p (map (before k) env) = results (before k) (run_arr m p env) /\
  run_arr m p (map (after k) env) = results (after k) (run_arr m p env).
Proof.
  intros m p n k env S F K. assert (FE := all_fulls n env F).
  assert (B : forall i, In i (seq 0 k) -> (i < n)%nat) by (intros i Q; apply in_seq in Q; lia).
  assert (A : forall i, In i (seq k (n - k)) -> (i < n)%nat) by (intros i Q; apply in_seq in Q; lia).
  assert (R : forall f sel, (forall i, In i sel -> (i < n)%nat) -> (forall v, fulln n v -> f v = pick sel v) ->
    run_arr m p (map f env) = results f (run_arr m p env)).
  { intros f sel Hs Hf. rewrite (map_ext_in f (pick sel)) by (intros v Q; apply Hf, FE, Q). rewrite (C92_pick m p n sel env S F Hs).
    destruct (run_arr m p env) as [out| |] eqn:E; [|reflexivity..]. unfold results. cbn [call]. f_equal. apply map_ext_in. intros v Q. symmetry. apply Hf.
    exact (full_run m n sel Hs p S env out FE E v Q). }
  split; [apply (R _ _ B)|apply (R _ _ A)]; intros v Q; [apply (before_pick k n)|apply (after_pick k n)]; auto.
Qed.
Print Assumptions C92_cut.
Theorem C92_join : forall m p n k env out,
  straight p = true -> all_full n env -> (k <= n)%nat -> run_arr m p env = Ret out ->
  exists a b, run_arr m p (map (before k) env) = Ret a /\ run_arr m p (map (after k) env) = Ret b /\
    length a = length out /\ length b = length out /\
    forall i, (i < length out)%nat -> joined (nth i a (VS Und)) (nth i b (VS Und)) (nth i out (VS Und)).
Proof.
  intros m p n k env out S F K E. destruct (C92_cut m p n k env S F K) as [B A]. rewrite E in A, B. exists (map (before k) out), (map (after k) out).
  split; [exact B|]. split; [exact A|]. rewrite !map_length. split; [reflexivity|]. split; [reflexivity|]. intros i _.
  change (VS Und) with (before k (VS Und)) at 1. change (VS Und) with (after k (VS Und)) at 2. rewrite !map_nth.
  destruct (nth i out (VS Und)) as [x|l]; cbn; [auto|]. rewrite firstn_skipn. reflexivity.
Qed.
Print Assumptions C92_join.

(** Not so with a test: matrix_modulus raises ValueError on any log of at least two shale volumes, although it takes each sample. *)
Theorem C92_matrix_modulus_refuted : forall m (a b : R) (l : list R) phi_c phi_0 M_sh M_g M_c,
  phi_0 <> 1 ->
  let args := [VA (Fin a :: Fin b :: map Fin l); VS (Fin phi_c); VS (Fin phi_0); VS (Fin M_sh); VS (Fin M_g); VS (Fin M_c)] in
  run_arr m arr_QI_matrix_modulus args = Raise ValueError /\
  forall i, (i < 2 + length l)%nat -> exists out, run_arr m arr_QI_matrix_modulus (map (pick [i]) args) = Ret out.
Proof.
  intros m a b l phi_c phi_0 M_sh M_g M_c H args. split.
  - unfold args. cbn. destruct (Req_EM_T (1 - phi_0) 0); [exfalso; lra|]. reflexivity.
  - intros i Hi. assert (E : map (pick [i]) args = [VA [nth i (Fin a :: Fin b :: map Fin l) Und]; VS (Fin phi_c); VS (Fin phi_0); VS (Fin M_sh); VS (Fin M_g); VS (Fin M_c)]) by reflexivity.
    fold args. rewrite E. assert (exists x, nth i (Fin a :: Fin b :: map Fin l) Und = Fin x) as (x & ->).
    { change (Fin a :: Fin b :: map Fin l) with (map Fin (a :: b :: l)). exists (nth i (a :: b :: l) 0). rewrite (nth_indep _ Und (Fin 0)) by (rewrite map_length; cbn; lia). apply map_nth. }
    cbn. destruct (Reqb x 0);
    repeat (match goal with |- context [Req_EM_T ?x ?y] => destruct (Req_EM_T x y); cbn; try (exfalso; lra) end); eexists; reflexivity.
Qed.
Print Assumptions C92_matrix_modulus_refuted.

(** ** The hypotheses hold *)
Example C92_nonvacuous : forall m,
  let args := [VA [#36; #37; #38]; VA [#44; #45; #46]; VS #(265/100)] in
  straight arr_utils_V = true /\ all_full 3 args /\ Permutation [2%nat; 0%nat; 1%nat] (seq 0 3) /\
  map (pick [2%nat; 0%nat; 1%nat]) args = [VA [#38; #36; #37]; VA [#46; #44; #45]; VS #(265/100)] /\
  map (before 1) args = [VA [#36]; VA [#44]; VS #(265/100)] /\
  exists a b, run_arr m arr_utils_V args = Ret [VA a; VA b].
Proof.
  intros m args. split; [reflexivity|]. split.
  { intros l H. unfold args in H. repeat (destruct H as [[= <-]|H]; [reflexivity|]). destruct H as [H|[]]. discriminate. }
  split; [cbn; apply perm_trans with [0; 2; 1]%nat; [apply perm_swap|apply perm_skip, perm_swap]|].
  split; [reflexivity|]. split; [reflexivity|]. do 2 eexists. cbn. reflexivity.
Qed.
