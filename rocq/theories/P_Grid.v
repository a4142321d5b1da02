(** * P_Grid: calls with two-dimensional arrays and the functions that return tables (C80). *)
From Verif Require Import Fl M_Utils M_EM M_Anis M_AVO M_Array M_ArrayFns Spec16 L_Array L_ArrayFns M_Grid Spec17 L_Grid L_GridFns.
Open Scope fl_scope.

(** The programs of M_Grid.v, run on numbers, are the models of the functions. *)
Theorem C80_programs :
  (forall m theta vp1 vp2 vs1 vs2 den1 den2,
     out4 (AVO_Aki_Richards m theta vp1 vp2 vs1 vs2 den1 den2)
     = run m arr_AVO_Aki_Richards [theta; vp1; vp2; vs1; vs2; den1; den2]) /\
  (forall m Ks Gs phi, out2 (EM_Swiss_cheese m Ks Gs phi) = run m arr_EM_Swiss_cheese [Ks; Gs; phi]) /\
  (forall m ipn isn Vp0 Vs0 Vp Vs rho theta SP,
     out_EI (AVO_EI_sample m ipn isn Vp0 Vs0 Vp Vs rho theta SP)
     = run m arr_AVO_EI_sample [ipn; isn; Vp0; Vs0; Vp; Vs; rho; theta; SP]) /\
  (forall m D1 D2 C1 C2 theta azimuth,
     out1 (AVO_HTI_elem D1 D2 C1 C2 theta azimuth)
     = run m arr_AVO_HTI_elem [D1; D2; mget C1 0 0; mget C1 0 2; mget C1 2 2; mget C1 3 3; mget C1 4 4; mget C1 5 5;
                               mget C2 0 0; mget C2 0 2; mget C2 2 2; mget C2 3 3; mget C2 4 4; mget C2 5 5; theta; azimuth]).
Proof.
  split; [exact Aki_Richards_arr|]. split; [exact Swiss_cheese_arr|]. split; [exact EI_sample_arr|exact HTI_elem_arr].
Qed.
Print Assumptions C80_programs.

(** Every straight program, on numbers, rows, columns and tables that stretch to n by k: the call returns, and element (i, j) of
    each result is what the program returns for the elements (i, j) of the arguments. *)
Lemma grids_elementwise : forall p n k env,
  straight p = true -> gargs_ok n k env ->
  exists out, run_grid NumPy p env = Ret out /\ gargs_ok n k out /\
    forall i j, (i < n)%nat -> (j < k)%nat -> run NumPy p (map (at_ i j) env) = Ret (map (at_ i j) out).
Proof.
  intros p n k env S H. pose proof (grun_straight NumPy n k p S env H) as R.
  destruct (run_grid NumPy p env) as [out|e|]; [|destruct R; discriminate|contradiction].
  exists out. destruct R as [Ho R]. split; [auto|split; [auto|]]. intros i j Hi Hj.
  specialize (R i j _ Hi Hj (ats_rels NumPy i j env)).
  destruct (run NumPy p (map (at_ i j) env)) as [xs|e|]; simpl in R; try discriminate.
  f_equal. apply grels_numpy; auto.
Qed.
Theorem C80_grids_elementwise : forall p n k env,
  straight p = true -> gargs_ok n k env ->
  exists out, run_grid NumPy p env = Ret out /\ gargs_ok n k out /\
    forall i j, (i < n)%nat -> (j < k)%nat -> run NumPy p (map (entry i j) env) = Ret (map (entry i j) out).
Proof.
  intros p n k env S H. destruct (grids_elementwise p n k env S H) as (out & E & A & R). exists out. split; [exact E|]. split; [exact A|].
  intros i j Hi Hj. rewrite !map_entry. auto.
Qed.
Print Assumptions C80_grids_elementwise.

(** The shape of each result: the axes, rows and columns of the arguments that it depends on. *)
Theorem C80_grid_shapes : forall m p n k ss env out,
  straight p = true -> Forall2 (has_shape n k) ss env -> run_grid m p env = Ret out ->
  Forall2 (has_shape n k) (pshapes p ss) out.
Proof. intros m p n k ss env out S H E. exact (grun_shape m n k p S ss env out H E). Qed.
Print Assumptions C80_grid_shapes.

(** Python floats mixed with arrays: if every element by itself gives finite numbers, the call gives exactly these. *)
Theorem C80_grids_python_floats : forall p n k env rs,
  straight p = true -> gargs_ok n k env -> (0 < n)%nat -> (0 < k)%nat ->
  (forall i j, (i < n)%nat -> (j < k)%nat -> run PyFloat p (map (entry i j) env) = Ret (map Fin (rs i j))) ->
  exists out, run_grid PyFloat p env = Ret out /\
    forall i j, (i < n)%nat -> (j < k)%nat -> map (entry i j) out = map Fin (rs i j).
Proof.
  setoid_rewrite map_entry.
  intros p n k env rs S H Hn Hk F. pose proof (grun_straight PyFloat n k p S env H) as R.
  destruct (run_grid PyFloat p env) as [out|e|]; [| |contradiction].
  - exists out. destruct R as [Ho R]. split; [auto|]. intros i j Hi Hj. specialize (R i j _ Hi Hj (ats_rels PyFloat i j env)).
    rewrite (F i j Hi Hj) in R. symmetry. apply grels_py; auto.
  - destruct R as [_ R]. destruct (R 0%nat 0%nat _ Hn Hk (ats_rels PyFloat 0 0 env)) as [e' E].
    rewrite (F 0%nat 0%nat Hn Hk) in E. discriminate.
Qed.
Print Assumptions C80_grids_python_floats.

(** Arrays of any sizes: the only failure is the ValueError of sizes that do not match. *)
Theorem C80_grid_sizes : forall p env,
  straight p = true -> (forall v, In v env -> gis_value v) ->
  (exists out, run_grid NumPy p env = Ret out) \/ run_grid NumPy p env = Raise ValueError.
Proof.
  intros p env S H. pose proof (grun_any p S env H) as R.
  destruct (run_grid NumPy p env) as [out|e|]; simpl in R; [left; eauto|right; congruence|contradiction].
Qed.
Print Assumptions C80_grid_sizes.

(** ** Aki-Richards: a table of layers against angles. *)
Lemma column_eval m l : newaxis m (row l) = Ret (GA 2 (length l) 1 (fun i _ => Fin (nth i l 0%R))).
Proof. reflexivity. Qed.
Definition col (l : list R) : gval := GA 2 (length l) 1 (fun i _ => Fin (nth i l 0%R)).
Lemma col_ok n k l : length l = n -> gsize_ok n k (col l) /\ gis_value (col l).
Proof. intros <-. split; [split; auto|intros i j _ _; exact I]. Qed.
Lemma row_ok n k l : length l = k -> gsize_ok n k (row l) /\ gis_value (row l).
Proof. intros <-. split; [split; auto|intros i j _ _; exact I]. Qed.
Lemma at_col n i j l : length l = n -> (i < n)%nat -> at_ i j (col l) = Fin (nth i l 0%R).
Proof. intros <- Hi. cbn [at_ col]. destruct (Nat.eqb_spec (length l) 1); auto. replace i with 0%nat by lia. reflexivity. Qed.
Lemma at_row k i j l : length l = k -> (j < k)%nat -> at_ i j (row l) = Fin (nth j l 0%R).
Proof. intros <- Hj. cbn [at_ row]. destruct (Nat.eqb_spec (length l) 1); auto. replace j with 0%nat by lia. reflexivity. Qed.
Lemma at_table n k i j v : is_table n k v -> (i < n)%nat -> (j < k)%nat -> exists f, v = GA 2 n k f /\ at_ i j v = f i j.
Proof.
  destruct v as [x|[|[|[|d]]] r c f]; simpl; try contradiction. intros [-> ->] Hi Hj. exists f. split; auto.
  destruct (Nat.eqb_spec n 1), (Nat.eqb_spec k 1); f_equal; lia.
Qed.
Lemma col_shape n k l : length l = n -> has_shape n k (2%nat, true, false) (col l).
Proof. intros <-. repeat split; auto. Qed.
Lemma row_shape n k l : length l = k -> has_shape n k (1%nat, false, true) (row l).
Proof. intros <-. repeat split; auto. Qed.
Lemma shape_table n k v : has_shape n k (2%nat, true, true) v -> is_table n k v.
Proof. destruct v as [x|d r c f]; [discriminate|]. intros (_ & -> & -> & ->). split; auto. Qed.
Lemma shape_col n k v : has_shape n k (2%nat, true, false) v -> is_table n 1 v.
Proof. destruct v as [x|d r c f]; [discriminate|]. intros (_ & -> & -> & ->). split; auto. Qed.
Lemma shape_row n k v : has_shape n k (1%nat, false, true) v -> is_row k v.
Proof. destruct v as [x|d r c f]; [discriminate|]. intros (_ & -> & -> & ->). split; auto. Qed.
Lemma out4_inv o a b c d : out4 o = Ret [a; b; c; d] -> o = Ret (a, b, c, d).
Proof.
  destruct o as [[[[x y] z] w]|e|]; cbn [out4 call]; try discriminate.
  destruct x, y, z, w; cbn; intros [= <- <- <- <-]; reflexivity.
Qed.
Lemma out2_inv o a b : out2 o = Ret [a; b] -> o = Ret (a, b).
Proof. destruct o as [[x y]|e|]; cbn [out2 call]; try discriminate. destruct x, y; cbn; intros [= <- <-]; reflexivity. Qed.
Lemma out1_inv o a : out1 o = Ret [a] -> o = Ret a.
Proof. destruct o as [x|e|]; cbn [out1 call]; try discriminate. destruct x; cbn; intros [= <-]; reflexivity. Qed.


(** n interfaces and k angles: the reflectivities are n by k tables, intercept and gradient columns of n, and row i, column j is
    the call for interface i and angle j. *)
Theorem C80_aki_richards_table : forall n theta vp1 vp2 vs1 vs2 den1 den2,
  length vp1 = n -> length vp2 = n -> length vs1 = n -> length vs2 = n -> length den1 = n -> length den2 = n ->
  exists Rpp Rps R0 G,
    grid_Aki_Richards NumPy (row theta) (row vp1) (row vp2) (row vs1) (row vs2) (row den1) (row den2) = Ret [Rpp; Rps; R0; G] /\
    is_table n (length theta) Rpp /\ is_table n (length theta) Rps /\ is_table n 1 R0 /\ is_table n 1 G /\
    forall i j, (i < n)%nat -> (j < length theta)%nat ->
      layer_call NumPy (nth j theta 0%R) vp1 vp2 vs1 vs2 den1 den2 i = Ret (entry i j Rpp, entry i j Rps, entry i j R0, entry i j G).
Proof.
  setoid_rewrite entry_at.
  intros n theta vp1 vp2 vs1 vs2 den1 den2 H1 H2 H3 H4 H5 H6.
  set (env := [row theta; col vp1; col vp2; col vs1; col vs2; col den1; col den2]).
  assert (A : gargs_ok n (length theta) env).
  { intros v Hv. repeat (destruct Hv as [<-|Hv]; [try (apply col_ok; assumption); apply row_ok; reflexivity|]). contradiction. }
  destruct (grids_elementwise arr_AVO_Aki_Richards n (length theta) env eq_refl A) as (out & E & _ & H).
  assert (Sh := C80_grid_shapes NumPy arr_AVO_Aki_Richards n (length theta)
    [(1%nat, false, true); (2%nat, true, false); (2%nat, true, false); (2%nat, true, false); (2%nat, true, false);
     (2%nat, true, false); (2%nat, true, false)] env out eq_refl).
  assert (S1 : Forall2 (has_shape n (length theta)) [(1%nat, false, true); (2%nat, true, false); (2%nat, true, false); (2%nat, true, false); (2%nat, true, false);
     (2%nat, true, false); (2%nat, true, false)] env).
  { constructor; [apply row_shape; auto|]. repeat (constructor; [apply col_shape; assumption|]). constructor. }
  specialize (Sh S1 E).
  change (pshapes _ _) with [(2%nat, true, true); (2%nat, true, true); (2%nat, true, false); (2%nat, true, false)] in Sh.
  inversion Sh as [|? Rpp ? ? P1 Q1]; subst. inversion Q1 as [|? Rps ? ? P2 Q2]; subst.
  inversion Q2 as [|? R0 ? ? P3 Q3]; subst. inversion Q3 as [|? G ? ? P4 Q4]; subst. inversion Q4; subst.
  exists Rpp, Rps, R0, G. split; [exact E|].
  split; [apply shape_table; auto|]. split; [apply shape_table; auto|].
  split; [apply (shape_col _ (length theta)); auto|]. split; [apply (shape_col _ (length theta)); auto|].
  intros i j Hi Hj. specialize (H i j Hi Hj). unfold env in H. cbn [map] in H.
  rewrite (at_row (length theta)), !(at_col (length vp1)) in H by auto.
  rewrite <- Aki_Richards_arr in H. apply out4_inv in H. exact H.
Qed.
Print Assumptions C80_aki_richards_table.

(** A result that depends on two arguments whose columns do not match cannot be computed; the same for rows. *)
Theorem C80_grid_mismatch : forall p env q q' c c' t,
  straight p = true -> (forall v, In v env -> gis_value v) ->
  c <> 1%nat -> c' <> 1%nat -> c <> c' ->
  nth t (depends p (length env) q) false = true -> nth t (depends p (length env) q') false = true ->
  (has_cols c (nth q env (GS Und)) /\ has_cols c' (nth q' env (GS Und))) \/
  (has_rows c (nth q env (GS Und)) /\ has_rows c' (nth q' env (GS Und))) ->
  run_grid NumPy p env = Raise ValueError.
Proof.
  intros p env q q' c c' t S V Hc Hc' N D D' H.
  destruct (C80_grid_sizes p env S V) as [[out E]|E]; [exfalso|exact E].
  assert (L : forall q, length (map (Nat.eqb q) (seq 0 (length env))) = length env) by (intros; rewrite map_length, seq_length; auto).
  destruct H as [[H H']|[H H']].
  - assert (F := grun_dim has_cols cols1 cols2l cols2r NumPy c p Hc S _ env out (L q)
      (fun i Hi => eq_ind_r (fun i => has_cols c (nth i env (GS Und))) H (flags_nth _ _ _ Hi)) E).
    assert (F' := grun_dim has_cols cols1 cols2l cols2r NumPy c' p Hc' S _ env out (L q')
      (fun i Hi => eq_ind_r (fun i => has_cols c' (nth i env (GS Und))) H' (flags_nth _ _ _ Hi)) E).
    destruct (Forall2_nth_flag _ _ _ t F D) as (v & Ev & Pv), (Forall2_nth_flag _ _ _ t F' D') as (v' & Ev' & Pv').
    rewrite Ev in Ev'. injection Ev' as <-. destruct v; simpl in *; congruence.
  - assert (F := grun_dim has_rows rows1 rows2l rows2r NumPy c p Hc S _ env out (L q)
      (fun i Hi => eq_ind_r (fun i => has_rows c (nth i env (GS Und))) H (flags_nth _ _ _ Hi)) E).
    assert (F' := grun_dim has_rows rows1 rows2l rows2r NumPy c' p Hc' S _ env out (L q')
      (fun i Hi => eq_ind_r (fun i => has_rows c' (nth i env (GS Und))) H' (flags_nth _ _ _ Hi)) E).
    destruct (Forall2_nth_flag _ _ _ t F D) as (v & Ev & Pv), (Forall2_nth_flag _ _ _ t F' D') as (v' & Ev' & Pv').
    rewrite Ev in Ev'. injection Ev' as <-. destruct v; simpl in *; congruence.
Qed.
Print Assumptions C80_grid_mismatch.

(** One angle given as a number: columns of n, not arrays of n. *)
Theorem C80_aki_richards_one_angle : forall n theta vp1 vp2 vs1 vs2 den1 den2,
  length vp1 = n -> length vp2 = n -> length vs1 = n -> length vs2 = n -> length den1 = n -> length den2 = n ->
  exists Rpp Rps R0 G,
    grid_Aki_Richards NumPy (GS (Fin theta)) (row vp1) (row vp2) (row vs1) (row vs2) (row den1) (row den2) = Ret [Rpp; Rps; R0; G] /\
    is_table n 1 Rpp /\ is_table n 1 Rps /\ is_table n 1 R0 /\ is_table n 1 G /\
    forall i, (i < n)%nat ->
      layer_call NumPy theta vp1 vp2 vs1 vs2 den1 den2 i = Ret (entry i 0 Rpp, entry i 0 Rps, entry i 0 R0, entry i 0 G).
Proof.
  setoid_rewrite entry_at.
  intros n theta vp1 vp2 vs1 vs2 den1 den2 H1 H2 H3 H4 H5 H6.
  set (env := [GS (Fin theta); col vp1; col vp2; col vs1; col vs2; col den1; col den2]).
  assert (A : gargs_ok n 1 env).
  { intros v Hv. destruct Hv as [<-|Hv]; [split; exact I|]. repeat (destruct Hv as [<-|Hv]; [apply col_ok; assumption|]). contradiction. }
  destruct (grids_elementwise arr_AVO_Aki_Richards n 1 env eq_refl A) as (out & E & _ & H).
  set (ss := [(0%nat, false, false); (2%nat, true, false); (2%nat, true, false); (2%nat, true, false); (2%nat, true, false);
     (2%nat, true, false); (2%nat, true, false)] : list shape).
  assert (S1 : Forall2 (has_shape n 1) ss env).
  { constructor; [reflexivity|]. repeat (constructor; [apply col_shape; assumption|]). constructor. }
  assert (Sh := C80_grid_shapes NumPy arr_AVO_Aki_Richards n 1 ss env out eq_refl S1 E).
  change (pshapes _ _) with [(2%nat, true, false); (2%nat, true, false); (2%nat, true, false); (2%nat, true, false)] in Sh.
  inversion Sh as [|? Rpp ? ? P1 Q1]; subst. inversion Q1 as [|? Rps ? ? P2 Q2]; subst.
  inversion Q2 as [|? R0 ? ? P3 Q3]; subst. inversion Q3 as [|? G ? ? P4 Q4]; subst. inversion Q4; subst.
  exists Rpp, Rps, R0, G. split; [exact E|].
  split; [apply (shape_col _ 1); auto|]. split; [apply (shape_col _ 1); auto|].
  split; [apply (shape_col _ 1); auto|]. split; [apply (shape_col _ 1); auto|].
  intros i Hi. specialize (H i 0%nat Hi (le_n 1)). unfold env in H. cbn [map] in H.
  rewrite !(at_col (length vp1)) in H by auto.
  rewrite <- Aki_Richards_arr in H. apply out4_inv in H. exact H.
Qed.
Print Assumptions C80_aki_richards_one_angle.

(** Only the type of [vp1] is looked at. If it is an array, a number among the others cannot be given an axis. *)
Theorem C80_aki_richards_number_below_refuted : forall m theta vp1 others,
  length others = 5%nat -> (forall v, In v others -> (exists x, v = GS x) \/ exists l, v = row l) -> (exists x, In (GS x) others) ->
  grid_Aki_Richards m theta (row vp1) (nth 0 others (GS Und)) (nth 1 others (GS Und)) (nth 2 others (GS Und))
    (nth 3 others (GS Und)) (nth 4 others (GS Und))
  = Raise (match m with PyFloat => TypeError | NumPy => IndexError end).
Proof.
  intros m theta vp1 others L H [x Hx].
  destruct others as [|a [|b [|c [|d [|e [|]]]]]]; try discriminate L. cbn [nth].
  assert (K : newaxes m [a; b; c; d; e] = Raise (match m with PyFloat => TypeError | NumPy => IndexError end)).
  { assert (Q : forall vs, (forall v, In v vs -> (exists x, v = GS x) \/ exists l, v = row l) -> In (GS x) vs ->
      newaxes m vs = Raise (match m with PyFloat => TypeError | NumPy => IndexError end)).
    { clear. induction vs as [|v vs IH]; intros H Hx; [contradiction|]. cbn [newaxes].
      destruct (H v (or_introl eq_refl)) as [[y ->]|[l ->]]; [reflexivity|].
      destruct Hx as [Hx|Hx]; [discriminate|]. rewrite column_eval. cbn [call].
      rewrite IH; auto. intros w Hw. apply H. right. auto. }
    apply Q; auto. }
  change (call (call (newaxis m (row vp1)) (fun v => call (newaxes m [a; b; c; d; e]) (fun vs => Ret (v :: vs))))
    (fun vs => run_grid m arr_AVO_Aki_Richards (theta :: vs)) = Raise (match m with PyFloat => TypeError | NumPy => IndexError end)).
  rewrite column_eval. cbn [call]. rewrite K. reflexivity.
Qed.
Print Assumptions C80_aki_richards_number_below_refuted.

(** If it is a number and the others are arrays of n, interface i is paired with angle i when there are n angles, and any other
    number of angles is an error: no table. *)
Theorem C80_aki_richards_number_above_refuted : forall n theta vp1 vp2 vs1 vs2 den1 den2,
  length vp2 = n -> length vs1 = n -> length vs2 = n -> length den1 = n -> length den2 = n -> n <> 1%nat ->
  (length theta = n ->
    exists Rpp Rps R0 G,
      grid_Aki_Richards NumPy (row theta) (GS (Fin vp1)) (row vp2) (row vs1) (row vs2) (row den1) (row den2) = Ret [Rpp; Rps; R0; G] /\
      is_row n Rpp /\ is_row n Rps /\ is_row n R0 /\ is_row n G /\
      forall i, (i < n)%nat ->
        layer_call NumPy (nth i theta 0%R) (repeat vp1 n) vp2 vs1 vs2 den1 den2 i
        = Ret (entry 0 i Rpp, entry 0 i Rps, entry 0 i R0, entry 0 i G)) /\
  (length theta <> n -> length theta <> 1%nat ->
     grid_Aki_Richards NumPy (row theta) (GS (Fin vp1)) (row vp2) (row vs1) (row vs2) (row den1) (row den2) = Raise ValueError).
Proof.
  setoid_rewrite entry_at.
  intros n theta vp1 vp2 vs1 vs2 den1 den2 H2 H3 H4 H5 H6 N1.
  set (env := [row theta; GS (Fin vp1); row vp2; row vs1; row vs2; row den1; row den2]).
  split.
  - intros Ht.
    assert (A : gargs_ok 1 n env).
    { intros v Hv. destruct Hv as [<-|Hv]; [apply row_ok; auto|]. destruct Hv as [<-|Hv]; [split; exact I|].
      repeat (destruct Hv as [<-|Hv]; [apply row_ok; assumption|]). contradiction. }
    destruct (grids_elementwise arr_AVO_Aki_Richards 1 n env eq_refl A) as (out & E & _ & H).
    set (ss := [(1%nat, false, true); (0%nat, false, false); (1%nat, false, true); (1%nat, false, true); (1%nat, false, true);
       (1%nat, false, true); (1%nat, false, true)] : list shape).
    assert (S1 : Forall2 (has_shape 1 n) ss env).
    { constructor; [apply row_shape; auto|]. constructor; [reflexivity|]. repeat (constructor; [apply row_shape; assumption|]). constructor. }
    assert (Sh := C80_grid_shapes NumPy arr_AVO_Aki_Richards 1 n ss env out eq_refl S1 E).
    change (pshapes _ _) with [(1%nat, false, true); (1%nat, false, true); (1%nat, false, true); (1%nat, false, true)] in Sh.
    inversion Sh as [|? Rpp ? ? P1 Q1]; subst. inversion Q1 as [|? Rps ? ? P2 Q2]; subst.
    inversion Q2 as [|? R0 ? ? P3 Q3]; subst. inversion Q3 as [|? G ? ? P4 Q4]; subst. inversion Q4; subst.
    exists Rpp, Rps, R0, G. split; [exact E|].
    do 4 (split; [apply (shape_row 1); auto|]).
    intros i Hi. specialize (H 0%nat i (le_n 1) Hi). unfold env in H. cbn [map] in H.
    rewrite !(at_row (length vp2)) in H by auto.
    change (at_ 0 i (GS (Fin vp1))) with (Fin vp1) in H.
    rewrite <- Aki_Richards_arr in H. apply out4_inv in H. unfold layer_call.
    replace (nth i (repeat vp1 (length vp2)) 0%R) with vp1; [exact H|].
    clear - Hi. revert i Hi. induction (length vp2) as [|k IH]; intros [|i] Hi; simpl; auto; try lia. apply IH. lia.
  - intros Ht Ht1. apply (C80_grid_mismatch arr_AVO_Aki_Richards env 0 2 (length theta) n 0); auto.
    + intros v Hv. destruct Hv as [<-|Hv]; [intros i j _ _; exact I|]. destruct Hv as [<-|Hv]; [exact I|].
      repeat (destruct Hv as [<-|Hv]; [intros i j _ _; exact I|]). contradiction.
    + left. split; [reflexivity|exact H2].
Qed.
Print Assumptions C80_aki_richards_number_above_refuted.

(** ** Swiss cheese: minerals against porosities. *)
Theorem C80_swiss_cheese_table : forall n Ks Gs phi, length Ks = n -> length Gs = n ->
  exists K G,
    grid_Swiss_cheese NumPy (row Ks) (row Gs) (row phi) = Ret [K; G] /\
    is_table n (length phi) K /\ is_table n (length phi) G /\
    forall i j, (i < n)%nat -> (j < length phi)%nat ->
      EM_Swiss_cheese NumPy (Fin (nth i Ks 0%R)) (Fin (nth i Gs 0%R)) (Fin (nth j phi 0%R)) = Ret (entry i j K, entry i j G).
Proof.
  setoid_rewrite entry_at.
  intros n Ks Gs phi H1 H2. set (env := [col Ks; col Gs; row phi]).
  assert (A : gargs_ok n (length phi) env).
  { intros v Hv. repeat (destruct Hv as [<-|Hv]; [try (apply col_ok; assumption); apply row_ok; reflexivity|]). contradiction. }
  destruct (grids_elementwise arr_EM_Swiss_cheese n (length phi) env eq_refl A) as (out & E & _ & H).
  set (ss := [(2%nat, true, false); (2%nat, true, false); (1%nat, false, true)] : list shape).
  assert (S1 : Forall2 (has_shape n (length phi)) ss env).
  { do 2 (constructor; [apply col_shape; assumption|]). constructor; [apply row_shape; auto|constructor]. }
  assert (Sh := C80_grid_shapes NumPy arr_EM_Swiss_cheese n (length phi) ss env out eq_refl S1 E).
  change (pshapes _ _) with [(2%nat, true, true); (2%nat, true, true)] in Sh.
  inversion Sh as [|? K ? ? P1 Q1]; subst. inversion Q1 as [|? G ? ? P2 Q2]; subst. inversion Q2; subst.
  exists K, G. split; [exact E|]. do 2 (split; [apply shape_table; auto|]).
  intros i j Hi Hj. specialize (H i j Hi Hj). unfold env in H. cbn [map] in H.
  rewrite (at_row (length phi)), !(at_col (length Ks)) in H by auto.
  rewrite <- Swiss_cheese_arr in H. apply out2_inv in H. exact H.
Qed.
Print Assumptions C80_swiss_cheese_table.

(** Three arrays of the same length n, one value of each per sample, give an n by n table and not n values; what the caller wants
    is on its diagonal. A mineral array with one shear modulus is an error. *)
Theorem C80_swiss_cheese_samples_refuted : forall n Ks Gs phi, length Ks = n -> length Gs = n -> length phi = n -> (2 <= n)%nat ->
  exists K G,
    grid_Swiss_cheese NumPy (row Ks) (row Gs) (row phi) = Ret [K; G] /\ is_table n n K /\ is_table n n G /\ ~ is_row n K /\
    forall i, (i < n)%nat ->
      EM_Swiss_cheese NumPy (Fin (nth i Ks 0%R)) (Fin (nth i Gs 0%R)) (Fin (nth i phi 0%R)) = Ret (entry i i K, entry i i G).
Proof.
  intros n Ks Gs phi H1 H2 H3 Hn. destruct (C80_swiss_cheese_table n Ks Gs phi H1 H2) as (K & G & E & TK & TG & H).
  rewrite H3 in TK, TG, H. exists K, G. split; [exact E|]. split; [exact TK|]. split; [exact TG|].
  split; [destruct K as [x|[|[|[|d]]] r c f]; simpl in *; tauto|]. intros i Hi. apply H; auto.
Qed.
Print Assumptions C80_swiss_cheese_samples_refuted.
Theorem C80_swiss_cheese_one_shear_refuted : forall m Ks G phi,
  grid_Swiss_cheese m (row Ks) (GS G) phi = Raise (match m with PyFloat => TypeError | NumPy => IndexError end).
Proof. reflexivity. Qed.
Print Assumptions C80_swiss_cheese_one_shear_refuted.

(** ** Elastic impedance: samples of a log against angles. *)
Lemma omap_seq {A} (f : A -> outcome EI_result) (g : nat -> A) (h : nat -> EI_result) n :
  (forall i, (i < n)%nat -> f (g i) = Ret (h i)) -> omap f (map g (seq 0 n)) = Ret (map h (seq 0 n)).
Proof.
  intros H. assert (Q : forall l, (forall i, In i l -> (i < n)%nat) -> omap f (map g l) = Ret (map h l)).
  { induction l as [|i l IH]; intros Hl; [reflexivity|]. cbn [map omap]. rewrite H by (apply Hl; left; auto). cbn [call].
    rewrite IH by (intros; apply Hl; right; auto). reflexivity. }
  apply Q. intros i Hi. apply in_seq in Hi. lia.
Qed.
Lemma nth_seq_map (l : list R) : map (fun i => Fin (nth i l 0%R)) (seq 0 (length l)) = map Fin l.
Proof.
  induction l as [|x l IH]; [reflexivity|]. cbn [length seq map]. f_equal. rewrite <- seq_shift, map_map. exact IH.
Qed.
Lemma gmean_col l : gmean (col l) = np_mean (map Fin l).
Proof.
  unfold gmean, col. f_equal. rewrite <- nth_seq_map. generalize (seq 0 (length l)). intros s.
  induction s as [|i s IH]; [reflexivity|]. cbn [flat_map map app seq]. f_equal.
Qed.
Lemma fsum_no_exc (l : list R) : no_exc (fsum (map Fin l)).
Proof. induction l as [|x l IH]; [exact I|]. cbn [map fsum]. apply (sem2_no_exc OAdd (Fin x)); auto. exact I. Qed.
Lemma mean_no_exc (l : list R) : no_exc (np_mean (map Fin l)).
Proof. unfold np_mean. apply (sem2_no_exc ODivN _ (Fin _)); [apply fsum_no_exc|exact I]. Qed.
Lemma out_EI_inv o a b c d e : out_EI o = Ret [a; b; c; d; e] ->
  o = Ret {| EI_pp := a; EI_psv := b; EI_svp := c; EI_svsv := d; EI_shsh := e |}.
Proof.
  destruct o as [[x y z w u]|ex|]; cbn [out_EI call EI_pp EI_psv EI_svp EI_svsv EI_shsh]; try discriminate.
  destruct x, y, z, w, u; cbn; intros [= <- <- <- <- <-]; reflexivity.
Qed.

(** A log of n samples and k angles: n by k tables; column j is the log for angle j, normalised or not. *)
Theorem C80_elastic_impedance_table : forall n Vp Vs rho theta SP norm, length Vp = n -> length Vs = n -> length rho = n ->
  exists pp psv svp svsv shsh,
    grid_EI_ref NumPy (row Vp) (row Vs) (row rho) (row theta) (GS (Fin SP)) norm = Ret [pp; psv; svp; svsv; shsh] /\
    (forall v, In v [pp; psv; svp; svsv; shsh] -> is_table n (length theta) v) /\
    forall j, (j < length theta)%nat ->
      exists rs, AVO_EI_ref NumPy (samples Vp Vs rho) (Fin (nth j theta 0%R)) (Fin SP) norm = Ret rs /\ length rs = n /\
        forall i, (i < n)%nat ->
          nth_error rs i = Some {| EI_pp := entry i j pp; EI_psv := entry i j psv; EI_svp := entry i j svp; EI_svsv := entry i j svsv;
                                   EI_shsh := entry i j shsh |}.
Proof.
  setoid_rewrite entry_at.
  intros n Vp Vs rho theta SP norm H1 H2 H3.
  assert (M : forall mVp mVs mrho ipn isn nVp nVs nrho, no_exc ipn -> no_exc isn -> no_exc mVp -> no_exc mVs -> no_exc mrho ->
    nVp = GA 2 n 1 (fun i _ => if norm then Fin (nth i Vp 0%R) /n mVp else Fin (nth i Vp 0%R)) ->
    nVs = GA 2 n 1 (fun i _ => if norm then Fin (nth i Vs 0%R) /n mVs else Fin (nth i Vs 0%R)) ->
    nrho = GA 2 n 1 (fun i _ => if norm then Fin (nth i rho 0%R) /n mrho else Fin (nth i rho 0%R)) ->
    exists pp psv svp svsv shsh,
      run_grid NumPy arr_AVO_EI_sample [GS ipn; GS isn; col Vp; col Vs; nVp; nVs; nrho; row theta; GS (Fin SP)]
        = Ret [pp; psv; svp; svsv; shsh] /\
      (forall v, In v [pp; psv; svp; svsv; shsh] -> is_table n (length theta) v) /\
      forall i j, (i < n)%nat -> (j < length theta)%nat ->
        AVO_EI_sample NumPy ipn isn (Fin (nth i Vp 0%R)) (Fin (nth i Vs 0%R))
          (if norm then Fin (nth i Vp 0%R) /n mVp else Fin (nth i Vp 0%R))
          (if norm then Fin (nth i Vs 0%R) /n mVs else Fin (nth i Vs 0%R))
          (if norm then Fin (nth i rho 0%R) /n mrho else Fin (nth i rho 0%R)) (Fin (nth j theta 0%R)) (Fin SP)
        = Ret {| EI_pp := at_ i j pp; EI_psv := at_ i j psv; EI_svp := at_ i j svp; EI_svsv := at_ i j svsv;
                 EI_shsh := at_ i j shsh |}).
  { intros mVp mVs mrho ipn isn nVp nVs nrho N1 N2 N3 N4 N5 EVp EVs Erho.
    set (env := [GS ipn; GS isn; col Vp; col Vs; nVp; nVs; nrho; row theta; GS (Fin SP)]).
    assert (V : forall (l : list R) (x : fl), no_exc x -> gsize_ok n (length theta) (GA 2 n 1 (fun i _ => if norm then Fin (nth i l 0%R) /n x else Fin (nth i l 0%R)))
       /\ gis_value (GA 2 n 1 (fun i _ => if norm then Fin (nth i l 0%R) /n x else Fin (nth i l 0%R)))).
    { intros l x Hx. split; [split; auto|]. intros i j _ _. destruct norm; [|exact I].
      apply (sem2_no_exc ODivN (Fin _) x); [exact I|exact Hx]. }
    assert (A : gargs_ok n (length theta) env).
    { intros v Hv. destruct Hv as [<-|[<-|[<-|[<-|[<-|[<-|[<-|[<-|[<-|[]]]]]]]]]].
      - split; [exact I|exact N1].
      - split; [exact I|exact N2].
      - apply col_ok; auto.
      - apply col_ok; auto.
      - rewrite EVp. apply V; auto.
      - rewrite EVs. apply V; auto.
      - rewrite Erho. apply V; auto.
      - apply row_ok; auto.
      - split; exact I. }
    destruct (grids_elementwise arr_AVO_EI_sample n (length theta) env eq_refl A) as (out & E & _ & H).
    set (ss := [(0%nat, false, false); (0%nat, false, false); (2%nat, true, false); (2%nat, true, false); (2%nat, true, false);
       (2%nat, true, false); (2%nat, true, false); (1%nat, false, true); (0%nat, false, false)] : list shape).
    assert (S1 : Forall2 (has_shape n (length theta)) ss env).
    { do 2 (constructor; [reflexivity|]). do 2 (constructor; [apply col_shape; assumption|]).
      constructor; [rewrite EVp; repeat split; auto|]. constructor; [rewrite EVs; repeat split; auto|].
      constructor; [rewrite Erho; repeat split; auto|]. constructor; [apply row_shape; auto|]. constructor; [reflexivity|constructor]. }
    assert (Sh := C80_grid_shapes NumPy arr_AVO_EI_sample n (length theta) ss env out eq_refl S1 E).
    change (pshapes _ _) with [(2%nat, true, true); (2%nat, true, true); (2%nat, true, true); (2%nat, true, true); (2%nat, true, true)] in Sh.
    inversion Sh as [|? pp ? ? P1 Q1]. inversion Q1 as [|? psv ? ? P2 Q2].
    inversion Q2 as [|? svp ? ? P3 Q3]. inversion Q3 as [|? svsv ? ? P4 Q4]. inversion Q4 as [|? shsh ? ? P5 Q5]. inversion Q5.
    subst. exists pp, psv, svp, svsv, shsh. split; [exact E|]. split.
    { intros v Hv. repeat (destruct Hv as [<-|Hv]; [apply shape_table; auto|]). contradiction. }
    intros i j Hi Hj. specialize (H i j Hi Hj). unfold env in H. cbn [map] in H.
    rewrite (at_row (length theta)), !(at_col (length Vp)) in H by auto.
    rewrite <- EI_sample_arr in H. apply out_EI_inv in H. rewrite <- H. clear - Hi.
    cbn [at_]. destruct (Nat.eqb_spec (length Vp) 1) as [e|e]; [|reflexivity]. replace i with 0%nat by lia. reflexivity. }
  set (mVp := np_mean (map Fin Vp)) in *. set (mVs := np_mean (map Fin Vs)). set (mrho := np_mean (map Fin rho)).
  assert (I1 := mean_no_exc Vp). assert (I2 := mean_no_exc Vs). assert (I3 := mean_no_exc rho). fold mVp in I1. fold mVs in I2. fold mrho in I3.
  assert (J1 : no_exc (if norm then mVp * mrho else #1)) by (destruct norm; [apply (sem2_no_exc OMul); auto|exact I]).
  assert (J2 : no_exc (if norm then mVs * mrho else #1)) by (destruct norm; [apply (sem2_no_exc OMul); auto|exact I]).
  destruct (M mVp mVs mrho (if norm then mVp * mrho else #1) (if norm then mVs * mrho else #1) _ _ _ J1 J2 I1 I2 I3 eq_refl eq_refl eq_refl)
    as (pp & psv & svp & svsv & shsh & E & T & H).
  exists pp, psv, svp, svsv, shsh. split; [|split; [exact T|]].
  - rewrite <- E. unfold grid_EI_ref, columns, row at 1. cbn [newaxes].
    change (newaxis NumPy (GA 1 1 (length Vp) (fun _ j => Fin (nth j Vp 0%R)))) with (@Ret gval (col Vp)).
    rewrite !column_eval. cbn [call]. fold (col Vp) (col Vs) (col rho). rewrite !gmean_col. fold mVp mVs mrho.
    destruct norm; [|unfold col; rewrite H2, H3, H1; reflexivity].
    unfold col; rewrite H2, H3, H1; reflexivity.
  - intros j Hj.
    set (h := fun i => {| EI_pp := at_ i j pp; EI_psv := at_ i j psv; EI_svp := at_ i j svp; EI_svsv := at_ i j svsv; EI_shsh := at_ i j shsh |}).
    exists (map h (seq 0 n)). split; [|split; [rewrite map_length, seq_length; auto|]].
    + assert (L1 : map (fun s : fl * fl * fl => fst (fst s)) (samples Vp Vs rho) = map Fin Vp).
      { unfold samples. rewrite map_map. apply nth_seq_map. }
      assert (L2 : map (fun s : fl * fl * fl => snd (fst s)) (samples Vp Vs rho) = map Fin Vs).
      { unfold samples. rewrite map_map, H1, <- H2. apply nth_seq_map. }
      assert (L3 : map snd (samples Vp Vs rho) = map Fin rho).
      { unfold samples. rewrite map_map, H1, <- H3. apply nth_seq_map. }
      unfold AVO_EI_ref. rewrite L1, L2, L3. fold mVp mVs mrho. unfold samples. rewrite H1. apply omap_seq.
      intros i Hi. unfold h. rewrite <- (H i j Hi Hj). destruct norm; reflexivity.
    + intros i Hi. rewrite nth_error_map, (nth_error_nth' _ 0%nat) by (rewrite seq_length; auto). rewrite seq_nth by auto. reflexivity.
Qed.
Print Assumptions C80_elastic_impedance_table.

(** ** Azimuthal reflectivity: one row per azimuth, one column per incidence angle. *)
Theorem C80_azimuthal_table : forall D1 D2 C1 C2 theta azimuth, stiff_ok C1 -> stiff_ok C2 ->
  exists Rpp rows,
    grid_HTI NumPy (Fin D1) (Fin D2) C1 C2 (map Fin theta) (map Fin azimuth) = Ret [Rpp] /\
    is_table (length azimuth) (length theta) Rpp /\
    AVO_HTI (Fin D1) (Fin D2) C1 C2 (map Fin theta) (map Fin azimuth) = Ret rows /\ length rows = length azimuth /\
    forall i j, (i < length azimuth)%nat -> (j < length theta)%nat ->
      exists r, nth_error rows i = Some r /\ length r = length theta /\ nth_error r j = Some (entry i j Rpp) /\
        AVO_HTI_elem (Fin D1) (Fin D2) C1 C2 (Fin (nth j theta 0%R)) (Fin (nth i azimuth 0%R)) = Ret (entry i j Rpp).
Proof.
  setoid_rewrite entry_at.
  intros D1 D2 C1 C2 theta azimuth O1 O2. set (n := length azimuth). set (k := length theta).
  set (env := GS (Fin D1) :: GS (Fin D2) :: stiffnesses C1 ++ stiffnesses C2
     ++ [mesh_theta (map Fin theta) (map Fin azimuth); mesh_azimuth (map Fin theta) (map Fin azimuth)]).
  assert (NT : forall l i, no_exc (nth i (map Fin l) Und)).
  { intros l i. destruct (nth_in_or_default i (map Fin l) Und) as [Hi| ->]; [|exact I]. apply in_map_iff in Hi as (x & <- & _). exact I. }
  assert (A : gargs_ok n k env).
  { intros v Hv. destruct O1 as (? & ? & ? & ? & ? & ?), O2 as (? & ? & ? & ? & ? & ?).
    destruct Hv as [<-|[<-|Hv]]; [split; exact I|split; exact I|].
    cbn [app stiffnesses] in Hv. do 12 (destruct Hv as [<-|Hv]; [split; [exact I|assumption]|]).
    destruct Hv as [<-|[<-|[]]]; (split; [unfold mesh_theta, mesh_azimuth; rewrite !map_length; split; auto|intros i j _ _; apply NT]). }
  destruct (grids_elementwise arr_AVO_HTI_elem n k env eq_refl A) as (out & E & _ & H).
  set (z := (0%nat, false, false) : shape). set (t := (2%nat, true, true) : shape).
  assert (S1 : Forall2 (has_shape n k) [z; z; z; z; z; z; z; z; z; z; z; z; z; z; t; t] env).
  { do 14 (constructor; [reflexivity|]). do 2 (constructor; [unfold mesh_theta, mesh_azimuth; rewrite !map_length; repeat split; auto|]). constructor. }
  assert (Sh := C80_grid_shapes NumPy arr_AVO_HTI_elem n k _ env out eq_refl S1 E).
  change (pshapes _ _) with [t] in Sh.
  inversion Sh as [|? Rpp ? ? P1 Q1]. inversion Q1. subst. exists Rpp.
  assert (Hij : forall i j, (i < n)%nat -> (j < k)%nat ->
    AVO_HTI_elem (Fin D1) (Fin D2) C1 C2 (Fin (nth j theta 0%R)) (Fin (nth i azimuth 0%R)) = Ret (at_ i j Rpp)).
  { intros i j Hi Hj. specialize (H i j Hi Hj). unfold env in H. cbn [map app stiffnesses] in H.
    assert (Et : at_ i j (mesh_theta (map Fin theta) (map Fin azimuth)) = Fin (nth j theta 0%R)).
    { cbn [at_ mesh_theta]. rewrite !map_length. fold n k. rewrite <- (map_nth Fin).
      destruct (Nat.eqb_spec k 1); [replace j with 0%nat by lia|]; apply nth_indep; rewrite map_length; unfold k in *; lia. }
    assert (Ea : at_ i j (mesh_azimuth (map Fin theta) (map Fin azimuth)) = Fin (nth i azimuth 0%R)).
    { cbn [at_ mesh_azimuth]. rewrite !map_length. fold n k. rewrite <- (map_nth Fin).
      destruct (Nat.eqb_spec n 1); [replace i with 0%nat by lia|]; apply nth_indep; rewrite map_length; unfold n in *; lia. }
    rewrite Et, Ea in H.
    apply out1_inv. rewrite (HTI_elem_arr NumPy). exact H. }
  exists (map (fun i => map (fun j => at_ i j Rpp) (seq 0 k)) (seq 0 n)).
  assert (OM : forall A B (f : A -> outcome B) (d : A) (h : nat -> B) (l : list A),
     (forall i, (i < length l)%nat -> f (nth i l d) = Ret (h i)) -> omap f l = Ret (map h (seq 0 (length l)))).
  { clear. intros A B f d h l. revert h. induction l as [|x l IH]; intros h Hl; [reflexivity|]. cbn [omap length seq map].
    assert (H0 := Hl 0%nat ltac:(simpl; lia)). cbn [nth] in H0. rewrite H0. cbn [call].
    rewrite (IH (fun i => h (S i))) by (intros i Hi; apply (Hl (S i)); simpl; lia). cbn [call].
    rewrite <- seq_shift, map_map. reflexivity. }
  split; [exact E|]. split; [apply shape_table; auto|]. split; [|split; [rewrite map_length, seq_length; auto|]].
  - unfold AVO_HTI. rewrite (OM _ _ _ Und (fun i => map (fun j => at_ i j Rpp) (seq 0 k))); [rewrite map_length; reflexivity|].
    intros i Hi. rewrite map_length in Hi. rewrite (OM _ _ _ Und (fun j => at_ i j Rpp)); [rewrite map_length; reflexivity|].
    intros j Hj. rewrite map_length in Hj. rewrite <- (Hij i j Hi Hj).
    rewrite !(nth_indep _ Und (Fin 0%R)) by (rewrite map_length; auto). rewrite !map_nth. reflexivity.
  - intros i j Hi Hj. exists (map (fun j => at_ i j Rpp) (seq 0 k)).
    split; [rewrite nth_error_map, (nth_error_nth' _ 0%nat), seq_nth by (rewrite ?seq_length; auto); reflexivity|].
    split; [rewrite map_length, seq_length; auto|].
    split; [rewrite nth_error_map, (nth_error_nth' _ 0%nat), seq_nth by (rewrite ?seq_length; auto); reflexivity|]. apply Hij; auto.
Qed.
Print Assumptions C80_azimuthal_table.

(** ** The hypotheses are met. *)
Example C80_nonvacuous_table :
  exists Rpp Rps R0 G,
    grid_Aki_Richards NumPy (row [0; 10; 20]%R) (row [3000; 2800]%R) (row [3200; 3500]%R) (row [1500; 1400]%R) (row [1700; 2000]%R)
      (row [2300; 2200]%R) (row [2400; 2500]%R) = Ret [Rpp; Rps; R0; G] /\ is_table 2 3 Rpp /\ is_table 2 1 R0.
Proof.
  destruct (C80_aki_richards_table 2 [0; 10; 20]%R [3000; 2800]%R [3200; 3500]%R [1500; 1400]%R [1700; 2000]%R [2300; 2200]%R [2400; 2500]%R
    eq_refl eq_refl eq_refl eq_refl eq_refl eq_refl) as (Rpp & Rps & R0 & G & E & H1 & _ & H2 & _).
  exists Rpp, Rps, R0, G. auto.
Qed.
Example C80_nonvacuous_grid : gargs_ok 2 3 [col [36; 20]%R; row [0; 1; 2]%R] /\ straight arr_utils_lame = true.
Proof.
  split; [|reflexivity]. intros v [<-|[<-|[]]]; [apply col_ok|apply row_ok]; reflexivity.
Qed.
Example C80_nonvacuous_python : forall i j, (i < 2)%nat -> (j < 3)%nat ->
  run PyFloat arr_utils_lame (map (entry i j) [col [36; 20]%R; row [0; 1; 2]%R])
  = Ret (map Fin [nth i [36; 20] 0 - 2 * nth j [0; 1; 2] 0 / 3]%R).
Proof.
  intros i j Hi Hj. rewrite map_entry. cbn [map]. rewrite (at_col 2), (at_row 3) by auto. cbn [map]. rewrite <- utils_lame_arr.
  unfold utils_lame, out1. rewrite fmul_fin, fdiv_fin by lra. rewrite fsub_fin. reflexivity.
Qed.
Example C80_nonvacuous_mismatch :
  run_grid NumPy arr_utils_lame [row [36; 20]%R; row [0; 1; 2]%R] = Raise ValueError.
Proof.
  apply (C80_grid_mismatch arr_utils_lame [row [36; 20]%R; row [0; 1; 2]%R] 0 1 2 3 0); auto.
  - intros v [<-|[<-|[]]] i j _ _; exact I.
  - left; split; reflexivity.
Qed.
