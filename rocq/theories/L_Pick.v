(** * L_Pick: picking samples commutes with the programs without tests *)
From Verif Require Import Fl M_Array Spec16 Spec28 L_Array.
Open Scope fl_scope.

Section Pick.
Variables (m : mode) (n : nat) (sel : list nat).
Hypothesis Hsel : forall i, In i sel -> (i < n)%nat.
Definition fulln (v : val) : Prop := match v with VS _ => True | VA l => length l = n end.

Lemma pick_map f l : length l = n -> map f (map (fun i => nth i l Und) sel) = map (fun i => nth i (map f l) Und) sel.
Proof.
  intros L. rewrite map_map. apply map_ext_in. intros i H. rewrite (nth_indep (map f l) Und (f Und)) by (rewrite map_length, L; auto). symmetry. apply map_nth.
Qed.
Lemma pick_map2 f a b : length a = n -> length b = n ->
  map2 f (map (fun i => nth i a Und) sel) (map (fun i => nth i b Und) sel) = map (fun i => nth i (map2 f a b) Und) sel.
Proof.
  intros La Lb. revert Hsel. induction sel as [|i s IH]; intros H; [reflexivity|]. cbn [map map2]. rewrite IH by (intros; apply H; right; auto). f_equal.
  symmetry. apply map2_nth; [lia|]. rewrite La. apply H. left. reflexivity.
Qed.
Lemma num_ret x v : num x = Ret v -> v = VS x.
Proof. destruct x; cbn; intros [= <-]; reflexivity. Qed.
Lemma pick_app1 o v : fulln v -> app1 o (pick sel v) = (call! u := app1 o v in Ret (pick sel u)) /\ (forall u, app1 o v = Ret u -> fulln u).
Proof.
  destruct v as [x|l]; cbn [app1 pick fulln]; intros L.
  - split; [destruct (num (sem1 o x)) eqn:E; cbn [call]; [apply num_ret in E as ->|..]; reflexivity|]. intros u E. apply num_ret in E as ->. exact I.
  - split; [cbn [call pick]; rewrite pick_map by exact L; reflexivity|]. intros u [= <-]. cbn. rewrite map_length. exact L.
Qed.
Lemma pick_app2 o v w : fulln v -> fulln w ->
  app2 m o (pick sel v) (pick sel w) = (call! u := app2 m o v w in Ret (pick sel u)) /\ (forall u, app2 m o v w = Ret u -> fulln u).
Proof.
  destruct v as [x|a], w as [y|b]; cbn [app2 pick fulln]; intros L1 L2.
  - split; [destruct (num (sem2 m o x y)) eqn:E; cbn [call]; [apply num_ret in E as ->|..]; reflexivity|]. intros u E. apply num_ret in E as ->. exact I.
  - split; [cbn [call pick]; rewrite pick_map by exact L2; reflexivity|]. intros u [= <-]. cbn. rewrite map_length. exact L2.
  - split; [cbn [call pick]; rewrite (pick_map (fun x => sem2 NumPy o x y)) by exact L1; reflexivity|]. intros u [= <-]. cbn. rewrite map_length. exact L1.
  - unfold broadcast. rewrite !map_length, Nat.eqb_refl, L1, L2, Nat.eqb_refl. cbn [call pick]. rewrite pick_map2 by auto. split; [reflexivity|].
    intros u [= <-]. cbn. rewrite map2_length; lia.
Qed.
Definition fulls (env : list val) : Prop := forall v, In v env -> fulln v.
Lemma fulls_nth env k : fulls env -> fulln (nth k env (VS Und)).
Proof. intros H. destruct (nth_in_or_default k env (VS Und)) as [Q| ->]; [apply H, Q|exact I]. Qed.
Lemma pick_ev env e : fulls env -> ev_arr m (map (pick sel) env) e = (call! u := ev_arr m env e in Ret (pick sel u)) /\ (forall u, ev_arr m env e = Ret u -> fulln u).
Proof.
  intros H. induction e as [k|r|o e IH|o e1 IH1 e2 IH2]; cbn [ev_arr].
  - split; [cbn [call]; change (VS Und) with (pick sel (VS Und)) at 1; rewrite map_nth; reflexivity|]. intros u [= <-]. apply fulls_nth, H.
  - split; [reflexivity|]. intros u [= <-]. exact I.
  - destruct IH as [IH F]. rewrite IH. destruct (ev_arr m env e) as [v| |]; cbn [call]; [|split; [reflexivity|discriminate]..]. apply pick_app1, F, eq_refl.
  - destruct IH1 as [IH1 F1], IH2 as [IH2 F2]. rewrite IH1. destruct (ev_arr m env e1) as [v| |]; cbn [call]; [|split; [reflexivity|discriminate]..].
    rewrite IH2. destruct (ev_arr m env e2) as [w| |]; cbn [call]; [|split; [reflexivity|discriminate]..]. apply pick_app2; [apply F1|apply F2]; reflexivity.
Qed.
Lemma pick_evs env es : fulls env -> ev_arrs m (map (pick sel) env) es = results (pick sel) (ev_arrs m env es).
Proof.
  intros H. unfold results. induction es as [|e es IH]; [reflexivity|]. cbn [ev_arrs]. rewrite (proj1 (pick_ev env e H)).
  destruct (ev_arr m env e) as [v| |]; cbn [call]; [|reflexivity..]. rewrite IH. destruct (ev_arrs m env es); reflexivity.
Qed.
Lemma pick_run p : straight p = true -> forall env, fulls env -> run_arr m p (map (pick sel) env) = results (pick sel) (run_arr m p env).
Proof.
  induction p as [es|e p IH|c e1 e2 p _ q _]; intros S env H; cbn [run_arr]; [apply pick_evs, H| |discriminate].
  destruct (pick_ev env e H) as [E F]. rewrite E. destruct (ev_arr m env e) as [v| |]; cbn [call]; [|reflexivity..].
  change [pick sel v] with (map (pick sel) [v]). rewrite <- map_app. apply IH; [exact S|].
  intros w Q. apply in_app_iff in Q as [Q|[<-|[]]]; [apply H, Q|apply F, eq_refl].
Qed.
Lemma full_evs env es out : fulls env -> ev_arrs m env es = Ret out -> fulls out.
Proof.
  intros H. revert out. induction es as [|e es IH]; intros out; cbn [ev_arrs]; [intros [= <-] v []|].
  destruct (pick_ev env e H) as [_ F]. destruct (ev_arr m env e) as [v| |]; cbn [call]; [|discriminate..].
  destruct (ev_arrs m env es) as [vs| |]; cbn [call]; [|discriminate..]. intros [= <-] w [<-|Q]; [apply F, eq_refl|eapply IH; eauto].
Qed.
Lemma full_run p : straight p = true -> forall env out, fulls env -> run_arr m p env = Ret out -> fulls out.
Proof.
  induction p as [es|e p IH|c e1 e2 p _ q _]; intros S env out H; cbn [run_arr]; [apply full_evs, H| |discriminate].
  destruct (pick_ev env e H) as [E F]. destruct (ev_arr m env e) as [v| |]; cbn [call]; [|discriminate..].
  apply IH; [exact S|]. intros w Q. apply in_app_iff in Q as [Q|[<-|[]]]; [apply H, Q|apply F, eq_refl].
Qed.
End Pick.
Lemma all_fulls n env : all_full n env -> fulls n env.
Proof. intros H [x|l] Q; [exact I|apply H, Q]. Qed.
Lemma pick_firstn k n l : length l = n -> (k <= n)%nat -> map (fun i => nth i l Und) (seq 0 k) = firstn k l.
Proof.
  intros <-. revert l. induction k as [|k IH]; intros [|x l] H; cbn in *; try lia; auto. f_equal. rewrite <- seq_shift, map_map. apply IH. lia.
Qed.
Lemma pick_skipn k n l : length l = n -> (k <= n)%nat -> map (fun i => nth i l Und) (seq k (n - k)) = skipn k l.
Proof.
  intros <-. revert l. induction k as [|k IH]; intros l H.
  - rewrite Nat.sub_0_r. rewrite (pick_firstn (length l) (length l)) by auto. apply firstn_all.
  - destruct l as [|x l]; cbn in *; [lia|]. rewrite <- seq_shift, map_map. cbn. apply IH. lia.
Qed.
