(** * L_Array: array runs of a program against its runs on numbers. *)
From Verif Require Import Fl M_Array Spec16.
Open Scope fl_scope.

(** What the run on numbers gives ([x]) against what the array run has at that place ([y]): the same for NumPy; for Python
    floats the same unless the run on numbers raised or left the model's claims. *)
Definition ref (m : mode) (x y : fl) : Prop :=
  match m with NumPy => x = y | PyFloat => x = y \/ x = Und \/ exists e, x = Exc e end.
Definition relv (m : mode) (i : nat) (x : fl) (v : val) : Prop :=
  match v with VS y => x = y | VA _ => ref m x (elem i v) end.

Lemma ref_refl m x : ref m x x.
Proof. destruct m; simpl; auto. Qed.
Lemma relv_ref m i x v : relv m i x v -> ref m x (elem i v).
Proof. destruct v; simpl; [intros ->; apply ref_refl|auto]. Qed.

Lemma sem1_no_exc o x : no_exc x -> no_exc (sem1 o x).
Proof.
  destruct o, x as [a| | | |e]; simpl; intros H; auto; try contradiction;
    repeat match goal with |- context [if ?b then _ else _] => destruct b end; simpl; auto; destruct n; simpl; auto.
Qed.
Lemma sem2_no_exc o x y : no_exc x -> no_exc y -> no_exc (sem2 NumPy o x y).
Proof.
  destruct o, x as [a| | | |e], y as [b| | | |e']; simpl; intros H1 H2; auto; try contradiction;
    repeat match goal with |- context [if ?b then _ else _] => destruct b end; simpl; auto.
Qed.
Lemma sem1_ref m o x y : ref m x y -> no_exc y -> ref m (sem1 o x) (sem1 o y).
Proof.
  destruct m; simpl; [|intros ->; auto].
  intros [->|[->|[e ->]]] H; [left; reflexivity| |right; right; exists e; destruct o; reflexivity].
  destruct o; simpl; auto. destruct n; simpl; auto. left. destruct y; simpl; auto; contradiction.
Qed.
Lemma sem2_exc m o e y : exists e', sem2 m o (Exc e) y = Exc e'.
Proof. destruct o; simpl; eauto. Qed.
Lemma sem2_exc_r m o e x : exists e', sem2 m o x (Exc e) = Exc e'.
Proof. destruct o, x; simpl; eauto. Qed.
Lemma sem1_exc o e : sem1 o (Exc e) = Exc e.
Proof. destruct o; reflexivity. Qed.
Lemma sem2_py_np o x y : no_exc x -> no_exc y -> ref PyFloat (sem2 PyFloat o x y) (sem2 NumPy o x y).
Proof.
  destruct o; simpl; auto; intros Hx Hy.
  - destruct x as [a| | | |e], y as [b| | | |e']; simpl in *; try contradiction; auto;
      destruct (Req_EM_T b 0); eauto.
  - destruct x as [a| | | |e], y as [b| | | |e']; simpl in *; try contradiction; auto.
    repeat match goal with |- context [if ?b then _ else _] => destruct b end; eauto.
Qed.
Lemma sem2_ref m o x y x' y' : ref m x x' -> ref m y y' -> no_exc x' -> no_exc y' ->
  ref m (sem2 m o x y) (sem2 NumPy o x' y').
Proof.
  destruct m; [|simpl; intros -> ->; auto].
  intros Hx Hy H1 H2.
  destruct Hx as [->|[->|[e ->]]].
  - destruct Hy as [->|[->|[e ->]]].
    + apply sem2_py_np; auto.
    + destruct o, x' as [a| | | |e]; simpl in *; try contradiction; auto; destruct y' as [b| | | |e']; simpl; auto; try contradiction;
        destruct (Req_EM_T b 0); auto.
    + right; right. apply sem2_exc_r.
  - destruct Hy as [->|[->|[e ->]]].
    + destruct o, y' as [b| | | |e']; simpl in *; try contradiction; auto;
        try (destruct (Req_EM_T b 0); eauto); destruct x' as [a| | | |e]; simpl; auto; contradiction.
    + destruct o; simpl; auto.
    + right; right. apply sem2_exc_r.
  - right; right. apply sem2_exc.
Qed.
Lemma semc_ref m c x y x' y' b : ref m x x' -> ref m y y' -> no_exc x' -> no_exc y' ->
  semc c x y = Some b -> semc c x' y' = Some b.
Proof.
  destruct m; [|simpl; intros -> ->; auto].
  intros Hx Hy H1 H2.
  assert (Und_l : forall z, semc c Und z = Some b -> z = NaN).
  { intros z. destruct c, z; simpl; unfold fltb, fleb, feqb, fcmp; congruence. }
  assert (Und_r : forall z, semc c z Und = Some b -> z = NaN).
  { intros z. destruct c, z; simpl; unfold fltb, fleb, feqb, fcmp; congruence. }
  destruct Hx as [->|[->|[e ->]]].
  - destruct Hy as [->|[->|[e ->]]]; auto.
    + intros E. pose proof (Und_r _ E) as ->. revert E. destruct c, y'; simpl; auto; contradiction.
    + destruct c, x'; simpl; congruence.
  - destruct Hy as [->|[->|[e ->]]]; auto.
    + intros E. pose proof (Und_l _ E) as ->. revert E. destruct c, x'; simpl; auto; contradiction.
    + intros E. pose proof (Und_l _ E). congruence.
    + destruct c; simpl; congruence.
  - destruct c, y; simpl; congruence.
Qed.

(** ** Elements *)
Lemma elem_map f i l : l <> [] -> (i < length l \/ length l = 1)%nat -> elem i (VA (map f l)) = f (elem i (VA l)).
Proof.
  destruct l as [|x [|y l]]; intros H Hi; [congruence|reflexivity|].
  cbn [map elem]. change (f x :: f y :: map f l) with (map f (x :: y :: l)).
  rewrite (nth_indep _ Und (f Und)); [apply map_nth|]. rewrite map_length. simpl in *; lia.
Qed.
Lemma map2_length f a : forall b, length a = length b -> length (map2 f a b) = length a.
Proof. induction a; destruct b; simpl; intros; auto; lia. Qed.
Lemma map2_nth f a : forall b i, length a = length b -> (i < length a)%nat -> nth i (map2 f a b) Und = f (nth i a Und) (nth i b Und).
Proof. induction a as [|x a IH]; intros [|y b] i E Hi; simpl in *; try lia. destruct i; auto. apply IH; lia. Qed.
Lemma map2_in f a : forall b z, In z (map2 f a b) -> exists x y, In x a /\ In y b /\ z = f x y.
Proof.
  induction a as [|x a IH]; intros [|y b] z; simpl; try contradiction.
  intros [<-|H]; [exists x, y; auto|]. destruct (IH _ _ H) as (u & v & ? & ? & ?). exists u, v; auto.
Qed.
Lemma elem_in n i v : size_ok n v -> (i < n)%nat -> is_value v -> no_exc (elem i v).
Proof.
  destruct v as [x|[|x [|y l]]]; intros H Hi V; [exact V|destruct i; exact I|apply V; left; reflexivity|].
  apply V. change (In (nth i (x :: y :: l) Und) (x :: y :: l)). apply nth_In. simpl in *; lia.
Qed.
Lemma elem_big i l : length l <> 1%nat -> elem i (VA l) = nth i l Und.
Proof. destruct l as [|x [|y l]]; simpl; auto; congruence. Qed.
Lemma broadcast_elem f n a b : size_ok n (VA a) -> size_ok n (VA b) ->
  exists l, broadcast f a b = Ret l /\ size_ok n (VA l) /\
    (forall z, In z l -> exists x y, In x a /\ In y b /\ z = f x y) /\
    (forall i, (i < n)%nat -> elem i (VA l) = f (elem i (VA a)) (elem i (VA b))).
Proof.
  intros Ha Hb. unfold broadcast. destruct (Nat.eqb_spec (length a) (length b)) as [E|E].
  - exists (map2 f a b). repeat split.
    + simpl in *. rewrite map2_length; auto.
    + apply map2_in.
    + intros i Hi. destruct (Nat.eq_dec (length a) 1) as [E1|E1].
      * destruct a as [|x [|]], b as [|y [|]]; simpl in *; try lia. reflexivity.
      * assert (length a = n) by (destruct Ha; auto; contradiction).
        rewrite !elem_big; rewrite ?map2_length by auto; try lia. apply map2_nth; lia.
  - destruct a as [|x [|x' a]].
    + destruct b as [|y [|y' b]]; simpl in *; try lia. exists []. repeat split; auto; intros; try contradiction; lia.
    + exists (map (f x) b). repeat split.
      * simpl in *. rewrite map_length; auto.
      * intros z Hz. apply in_map_iff in Hz as (y & <- & Hy). exists x, y; simpl; auto.
      * intros i Hi. rewrite elem_map; [reflexivity| |].
        { intros ->. simpl in *. lia. }
        simpl in *. lia.
    + destruct b as [|y [|y' b]]; simpl in Ha, Hb, E; try lia.
      exists (map (fun x => f x y) (x :: x' :: a)). repeat split.
      * simpl in *. rewrite map_length; auto.
      * intros z Hz. apply in_map_iff in Hz as (u & <- & Hy). exists u, y; simpl; auto.
      * intros i Hi. rewrite elem_map; [reflexivity|congruence|]. simpl in *; lia.
Qed.
Lemma size_ok_map f n l : size_ok n (VA l) -> size_ok n (VA (map f l)).
Proof. simpl. rewrite map_length. auto. Qed.

(** ** Expressions *)
Lemma args_nth n env k : args_ok n env -> size_ok n (nth k env (VS Und)) /\ is_value (nth k env (VS Und)).
Proof.
  intros H. destruct (nth_in_or_default k env (VS Und)) as [Hi| ->]; [apply H; auto|simpl; auto].
Qed.
(** The numbers of element [i] against the arrays. *)
Definition rels (m : mode) (i : nat) (xs : list fl) (vs : list val) : Prop := Forall2 (relv m i) xs vs.
Lemma rels_nth m i xs vs k : rels m i xs vs -> relv m i (nth k xs Und) (nth k vs (VS Und)).
Proof. intros H; revert k. induction H; intros [|k]; simpl; auto. Qed.

Lemma ev_sound m n env e : args_ok n env ->
  match ev_arr m env e with
  | Ret v => size_ok n v /\ is_value v /\ forall i xs, (i < n)%nat -> rels m i xs env -> relv m i (ev m xs e) v
  | Raise _ => m = PyFloat /\ forall i xs, (i < n)%nat -> rels m i xs env -> exists e', ev m xs e = Exc e'
  | Unknown => False
  end.
Proof.
  intros Henv. induction e as [k|r|o e IH|o e1 IH1 e2 IH2]; cbn [ev_arr ev].
  - destruct (args_nth n env k Henv) as [H1 H2]. split; [auto|split; [auto|]]. intros i xs _ H. apply rels_nth; auto.
  - simpl; auto.
  - destruct (ev_arr m env e) as [v|ex|]; cbn [call]; auto.
    + destruct IH as (Hs & Hv & Hr). destruct v as [x|l]; cbn [app1].
      * assert (N : no_exc (sem1 o x)) by (apply sem1_no_exc, Hv).
        unfold num. destruct (sem1 o x) eqn:E; try contradiction;
          (split; [exact I|split; [exact I|intros i xs Hi Hx; specialize (Hr i xs Hi Hx); simpl in Hr |- *; rewrite Hr; auto]]).
      * split; [apply size_ok_map; auto|]. split.
        { intros x Hx. apply in_map_iff in Hx as (y & <- & Hy). apply sem1_no_exc, Hv, Hy. }
        intros i xs Hi Hx. specialize (Hr i xs Hi Hx). cbn [relv] in *.
        rewrite elem_map; [apply sem1_ref; [auto|apply (elem_in n); auto]| |].
        { intros ->. simpl in Hs. lia. }
        simpl in Hs. lia.
    + destruct IH as (Hm & H). split; auto. intros i xs Hi Hx. destruct (H i xs Hi Hx) as [e' ->]. exists e'. apply sem1_exc.
  - destruct (ev_arr m env e1) as [v|ex|]; cbn [call]; auto.
    2:{ destruct IH1 as (Hm & H). split; auto. intros i xs Hi Hx. destruct (H i xs Hi Hx) as [e' ->]. apply sem2_exc. }
    destruct (ev_arr m env e2) as [w|ex|]; cbn [call]; auto.
    2:{ destruct IH2 as (Hm & H). split; auto. intros i xs Hi Hx. destruct (H i xs Hi Hx) as [e' ->]. apply sem2_exc_r. }
    destruct IH1 as (Hs1 & Hv1 & Hr1), IH2 as (Hs2 & Hv2 & Hr2).
    assert (R : forall i xs, (i < n)%nat -> rels m i xs env ->
      ref m (sem2 m o (ev m xs e1) (ev m xs e2)) (sem2 NumPy o (elem i v) (elem i w))).
    { intros i xs Hi Hx. apply sem2_ref; try (apply relv_ref; auto); apply (elem_in n); auto. }
    destruct v as [x|a], w as [y|b]; cbn [app2].
    + assert (Q : forall i xs, (i < n)%nat -> rels m i xs env -> sem2 m o (ev m xs e1) (ev m xs e2) = sem2 m o x y).
      { intros i xs Hi Hx. specialize (Hr1 i xs Hi Hx); specialize (Hr2 i xs Hi Hx). simpl in Hr1, Hr2. congruence. }
      unfold num. destruct (sem2 m o x y) eqn:E; try (split; [exact I|split; [exact I|exact Q]]).
      destruct m; [split; eauto|].
      exfalso. assert (N := sem2_no_exc o x y Hv1 Hv2). rewrite E in N. exact N.
    + split; [apply size_ok_map; auto|]. split.
      { intros z Hz. apply in_map_iff in Hz as (u & <- & Hu). apply sem2_no_exc; [exact Hv1|apply Hv2, Hu]. }
      intros i xs Hi Hx. cbn [relv]. rewrite elem_map; [apply R; auto| |].
      { intros ->. simpl in Hs2. lia. }
      simpl in Hs2. lia.
    + split; [apply size_ok_map; auto|]. split.
      { intros z Hz. apply in_map_iff in Hz as (u & <- & Hu). apply sem2_no_exc; [apply Hv1, Hu|exact Hv2]. }
      intros i xs Hi Hx. cbn [relv]. rewrite elem_map; [apply R; auto| |].
      { intros ->. simpl in Hs1. lia. }
      simpl in Hs1. lia.
    + destruct (broadcast_elem (sem2 NumPy o) n a b Hs1 Hs2) as (l & -> & Hl & Hin & Hel). cbn [call].
      split; [auto|]. split.
      { intros z Hz. destruct (Hin z Hz) as (x & y & Hx & Hy & ->). apply sem2_no_exc; [apply Hv1, Hx|apply Hv2, Hy]. }
      intros i xs Hi Hx. cbn [relv]. rewrite Hel by auto. apply R; auto.
Qed.

(** ** Programs *)
Definition res_ok (m : mode) (n i : nat) (r : outcome (list fl)) (out : list val) : Prop :=
  match r with Ret xs => rels m i xs out | Raise _ => m = PyFloat | Unknown => m = PyFloat end.
Definition raises {A} (r : outcome A) : Prop := exists e, r = Raise e.

Lemma rets_sound m n env es : args_ok n env ->
  match ev_arrs m env es with
  | Ret out => args_ok n out /\ forall i xs, (i < n)%nat -> rels m i xs env -> res_ok m n i (rets (map (ev m xs) es)) out
  | Raise _ => m = PyFloat /\ forall i xs, (i < n)%nat -> rels m i xs env -> raises (rets (map (ev m xs) es))
  | Unknown => False
  end.
Proof.
  intros Henv. induction es as [|e es IH]; cbn [ev_arrs map rets].
  - split; [intros v []|]. intros i xs _ _. constructor.
  - pose proof (ev_sound m n env e Henv) as He.
    destruct (ev_arr m env e) as [v|ex|]; cbn [call]; auto.
    2:{ destruct He as (Hm & H). split; auto. intros i xs Hi Hx. destruct (H i xs Hi Hx) as [e' ->]. exists e'. reflexivity. }
    destruct He as (Hs & Hv & Hr).
    destruct (ev_arrs m env es) as [vs|ex|]; cbn [call]; auto.
    2:{ destruct IH as (Hm & H). split; auto. intros i xs Hi Hx. destruct (H i xs Hi Hx) as [e' ->].
        destruct (ev m xs e); simpl; eexists; reflexivity. }
    destruct IH as (Ho & H). split.
    { intros w [<-|Hw]; auto. }
    intros i xs Hi Hx. specialize (Hr i xs Hi Hx). specialize (H i xs Hi Hx).
    destruct (ev m xs e) as [r| | | |ex] eqn:E; cbn [bind];
      try (destruct (rets (map (ev m xs) es)); cbn [call res_ok] in *; auto; constructor; auto).
    simpl. destruct m; auto. exfalso.
    assert (N := elem_in n i v Hs Hi Hv). apply relv_ref in Hr. simpl in Hr. rewrite <- Hr in N. exact N.
Qed.

Lemma args_app n env v : args_ok n env -> size_ok n v -> is_value v -> args_ok n (env ++ [v]).
Proof. intros H H1 H2 w Hw. apply in_app_or in Hw as [Hw|[<-|[]]]; auto. Qed.
Lemma rels_app m i xs vs x v : rels m i xs vs -> relv m i x v -> rels m i (xs ++ [x]) (vs ++ [v]).
Proof. intros H1 H2. apply Forall2_app; auto. Qed.

(** A straight program returns unless numbers alone make it raise. *)
Lemma run_straight m n p : straight p = true -> forall env, args_ok n env ->
  match run_arr m p env with
  | Ret out => args_ok n out /\ forall i xs, (i < n)%nat -> rels m i xs env -> res_ok m n i (run m p xs) out
  | Raise _ => m = PyFloat /\ forall i xs, (i < n)%nat -> rels m i xs env -> raises (run m p xs)
  | Unknown => False
  end.
Proof.
  induction p as [es|e p IH|]; cbn [straight run_arr run]; intros S env Henv; [apply rets_sound; auto| |congruence].
  pose proof (ev_sound m n env e Henv) as He.
  destruct (ev_arr m env e) as [v|ex|]; cbn [call]; auto.
  2:{ destruct He as (Hm & H). split; auto. intros i xs Hi Hx. destruct (H i xs Hi Hx) as [e' ->]. exists e'. reflexivity. }
  destruct He as (Hs & Hv & Hr). specialize (IH S (env ++ [v]) (args_app _ _ _ Henv Hs Hv)).
  destruct (run_arr m p (env ++ [v])) as [out|ex|]; auto.
  - destruct IH as [Ho IH]. split; auto. intros i xs Hi Hx. specialize (Hr i xs Hi Hx).
    destruct (ev m xs e) as [r| | | |ex] eqn:E; cbn [bind]; try (apply IH; [auto|apply rels_app; auto]).
    simpl. destruct m; auto. exfalso.
    assert (N := elem_in n i v Hs Hi Hv). apply relv_ref in Hr. simpl in Hr. rewrite <- Hr in N. exact N.
  - destruct IH as [Hm IH]. split; auto. intros i xs Hi Hx. specialize (Hr i xs Hi Hx).
    destruct (ev m xs e) as [r| | | |ex'] eqn:E; cbn [bind]; try (apply (IH i); [auto|apply rels_app; auto]).
    exists ex'; reflexivity.
Qed.

Lemma elems_rels m i env : rels m i (map (elem i) env) env.
Proof. induction env as [|v env IH]; constructor; auto. destruct v; simpl; [auto|apply ref_refl]. Qed.
Lemma rels_numpy i xs vs : rels NumPy i xs vs -> xs = map (elem i) vs.
Proof. intros H; induction H as [|x v xs vs Hx _ IH]; simpl; auto. rewrite IH. f_equal. destruct v; auto. Qed.
Lemma rels_py i rs vs : rels PyFloat i (map Fin rs) vs -> map Fin rs = map (elem i) vs.
Proof.
  revert vs; induction rs as [|r rs IH]; intros vs H; inversion H as [|x v xs vs' Hx Hxs]; subst; simpl; auto.
  rewrite <- (IH _ Hxs). f_equal. destruct v; auto. destruct Hx as [Hx|[Hx|[e Hx]]]; [auto|discriminate|discriminate].
Qed.

(** With tests: what returns is right. *)
Lemma truth_sound m n v w b i x y : size_ok n v -> size_ok n w -> is_value v -> is_value w -> (i < n)%nat ->
  relv m i x v -> relv m i y w -> forall c, truth c v w = Ret b ->
  forall b', semc c x y = Some b' -> b = b'.
Proof.
  intros Sv Sw Vv Vw Hi Hx Hy c T b' E.
  assert (Q : semc c (elem i v) (elem i w) = Some b').
  { apply (semc_ref m c x y); auto; try (apply relv_ref; auto); apply (elem_in n); auto. }
  destruct v as [x1|[|x1 [|x2 l]]], w as [y1|[|y1 [|y2 k]]]; unfold truth in T; cbn [elem] in Q; try discriminate;
    rewrite Q in T; congruence.
Qed.
Lemma truth_np c n v w b i : size_ok n v -> size_ok n w -> (i < n)%nat -> truth c v w = Ret b ->
  semc c (elem i v) (elem i w) = Some b.
Proof.
  intros Sv Sw Hi T.
  destruct v as [x1|[|x1 [|x2 l]]], w as [y1|[|y1 [|y2 k]]]; unfold truth in T; cbn [elem]; try discriminate;
    match goal with |- ?s = _ => destruct s; congruence end.
Qed.
Lemma run_any m n p : forall env out, args_ok n env -> run_arr m p env = Ret out ->
  args_ok n out /\ forall i xs, (i < n)%nat -> rels m i xs env -> res_ok m n i (run m p xs) out.
Proof.
  induction p as [es|e p IH|c e1 e2 p IHp q IHq]; cbn [run_arr run]; intros env out Henv E.
  - pose proof (rets_sound m n env es Henv) as H. rewrite E in H. exact H.
  - pose proof (ev_sound m n env e Henv) as He.
    destruct (ev_arr m env e) as [v|ex|]; cbn [call] in E; try discriminate.
    destruct He as (Hs & Hv & Hr). destruct (IH _ _ (args_app _ _ _ Henv Hs Hv) E) as [Ho H].
    split; auto. intros i xs Hi Hx. specialize (Hr i xs Hi Hx).
    destruct (ev m xs e) as [r| | | |ex] eqn:Ee; cbn [bind]; try (apply H; [auto|apply rels_app; auto]).
    simpl. destruct m; auto. exfalso.
    assert (N := elem_in n i v Hs Hi Hv). apply relv_ref in Hr. simpl in Hr. rewrite <- Hr in N. exact N.
  - pose proof (ev_sound m n env e1 Henv) as H1. pose proof (ev_sound m n env e2 Henv) as H2.
    destruct (ev_arr m env e1) as [v|ex|]; cbn [call] in E; try discriminate.
    destruct (ev_arr m env e2) as [w|ex|]; cbn [call] in E; try discriminate.
    destruct (truth c v w) as [b|ex|] eqn:T; cbn [call] in E; try discriminate.
    destruct H1 as (S1 & V1 & R1), H2 as (S2 & V2 & R2).
    assert (K : forall i xs, (i < n)%nat -> rels m i xs env ->
      semc c (ev m xs e1) (ev m xs e2) = Some b \/ (m = PyFloat /\ semc c (ev m xs e1) (ev m xs e2) = None)).
    { intros i xs Hi Hx. specialize (R1 i xs Hi Hx). specialize (R2 i xs Hi Hx). destruct m.
      - destruct (semc c (ev PyFloat xs e1) (ev PyFloat xs e2)) as [b'|] eqn:Es; [left|auto].
        f_equal. symmetry. apply (truth_sound PyFloat n v w b i _ _ S1 S2 V1 V2 Hi R1 R2 c T b' Es).
      - left. apply relv_ref in R1, R2. simpl in R1, R2. rewrite R1, R2. apply (truth_np c n); auto. }
    destruct b.
    + destruct (IHp _ _ Henv E) as [Ho H]. split; auto. intros i xs Hi Hx.
      destruct (K i xs Hi Hx) as [-> | [-> ->]]; [apply H; auto|reflexivity].
    + destruct (IHq _ _ Henv E) as [Ho H]. split; auto. intros i xs Hi Hx.
      destruct (K i xs Hi Hx) as [-> | [-> ->]]; [apply H; auto|reflexivity].
Qed.

(** ** Arrays of any lengths: only a length mismatch stops a straight program. *)
Definition ret_or_valueerror {A} (r : outcome A) : Prop := match r with Ret _ => True | Raise e => e = ValueError | Unknown => False end.
Definition vals_ok (env : list val) : Prop := forall v, In v env -> is_value v.
Lemma broadcast_any f a b : (forall x y, In x a -> In y b -> no_exc (f x y)) ->
  match broadcast f a b with Ret l => forall z, In z l -> no_exc z | Raise e => e = ValueError | Unknown => False end.
Proof.
  intros H. unfold broadcast. destruct (Nat.eqb (length a) (length b)).
  - intros z Hz. apply map2_in in Hz as (x & y & Hx & Hy & ->). auto.
  - destruct a as [|x [|x' a]], b as [|y [|y' b]]; simpl; auto; intros z Hz; try contradiction;
      repeat match goal with
      | Hz : _ = _ \/ _ |- _ => destruct Hz as [<-|Hz]
      | Hz : False |- _ => contradiction
      | Hz : In _ (map _ _) |- _ => apply in_map_iff in Hz as (u & <- & Hu)
      end; try (apply H; simpl; auto).
Qed.
Lemma ev_any env e : vals_ok env ->
  match ev_arr NumPy env e with Ret v => is_value v | Raise e => e = ValueError | Unknown => False end.
Proof.
  intros Henv. induction e as [k|r|o e IH|o e1 IH1 e2 IH2]; cbn [ev_arr].
  - destruct (nth_in_or_default k env (VS Und)) as [Hi| ->]; [apply Henv; auto|exact I].
  - exact I.
  - destruct (ev_arr NumPy env e) as [v|ex|]; cbn [call]; auto. destruct v as [x|l]; cbn [app1].
    + pose proof (sem1_no_exc o x IH). unfold num. destruct (sem1 o x); simpl; auto; contradiction.
    + intros x Hx. apply in_map_iff in Hx as (y & <- & Hy). apply sem1_no_exc, IH, Hy.
  - destruct (ev_arr NumPy env e1) as [v|ex|]; cbn [call]; auto.
    destruct (ev_arr NumPy env e2) as [w|ex|]; cbn [call]; auto.
    destruct v as [x|a], w as [y|b]; cbn [app2].
    + pose proof (sem2_no_exc o x y IH1 IH2). unfold num. destruct (sem2 NumPy o x y); simpl; auto; contradiction.
    + intros z Hz. apply in_map_iff in Hz as (u & <- & Hu). apply sem2_no_exc; [exact IH1|apply IH2, Hu].
    + intros z Hz. apply in_map_iff in Hz as (u & <- & Hu). apply sem2_no_exc; [apply IH1, Hu|exact IH2].
    + assert (H := broadcast_any (sem2 NumPy o) a b
        (fun u v Hu Hv => sem2_no_exc o u v (IH1 u Hu) (IH2 v Hv))).
      destruct (broadcast (sem2 NumPy o) a b); cbn [call is_value]; exact H.
Qed.
Lemma run_any_length p : straight p = true -> forall env, vals_ok env -> ret_or_valueerror (run_arr NumPy p env).
Proof.
  induction p as [es|e p IH|]; cbn [straight run_arr]; intros S env Henv; [| |congruence].
  - induction es as [|e es IHe]; cbn [ev_arrs]; [exact I|].
    pose proof (ev_any env e Henv) as H. destruct (ev_arr NumPy env e) as [v|ex|]; cbn [call]; auto.
    destruct (ev_arrs NumPy env es); cbn [call]; auto.
  - pose proof (ev_any env e Henv) as H. destruct (ev_arr NumPy env e) as [v|ex|]; cbn [call]; auto.
    apply IH; auto. intros w Hw. apply in_app_or in Hw as [Hw|[<-|[]]]; auto.
Qed.

(** ** A test of an array of several elements. *)
Lemma run_blocked m j p l n : (2 <= n)%nat -> length l = n -> tests_arg j p = true ->
  forall env, args_ok n env -> (j < length env)%nat -> nth j env (VS Und) = VA l ->
  exists e, run_arr m p env = Raise e /\ (m = NumPy -> e = ValueError).
Proof.
  intros Hn Hl. induction p as [es|e p IH|c e1 e2 p _ q _]; cbn [tests_arg run_arr]; intros T env Henv Hj Hnth; [discriminate| |].
  - pose proof (ev_sound m n env e Henv) as H. destruct (ev_arr m env e) as [v|ex|]; cbn [call]; [| |contradiction].
    + destruct H as (Hs & Hv & _). apply IH; auto; [apply args_app; auto|rewrite app_length; lia|].
      rewrite app_nth1; auto.
    + exists ex. split; auto. intros ->. destruct H as [H _]. discriminate.
  - destruct e1 as [k| | |]; try discriminate. apply Nat.eqb_eq in T. subst k. cbn [ev_arr]. rewrite Hnth. cbn [call].
    pose proof (ev_sound m n env e2 Henv) as H. destruct (ev_arr m env e2) as [w|ex|]; cbn [call]; [| |contradiction].
    + destruct H as (Hs & _). exists ValueError. split; auto.
      destruct l as [|x1 [|x2 l]]; simpl in Hl; try lia.
      destruct w as [y|[|y1 [|y2 k]]]; try reflexivity. simpl in Hs. lia.
    + exists ex. split; auto. intros ->. destruct H as [H _]. discriminate.
Qed.

(** ** Shapes of the results. *)
Lemma kind_nth ks vs k : ks = map is_arr vs -> nth k ks false = is_arr (nth k vs (VS Und)).
Proof. intros ->. rewrite <- (map_nth is_arr). reflexivity. Qed.
Lemma ev_kind m n env e v : (forall w, In w env -> full n w) -> ev_arr m env e = Ret v ->
  full n v /\ is_arr v = kind (map is_arr env) e.
Proof.
  intros Henv. revert v. induction e as [k|r|o e IH|o e1 IH1 e2 IH2]; cbn [ev_arr kind]; intros v E.
  - injection E as <-. split; [|symmetry; apply kind_nth; auto].
    destruct (nth_in_or_default k env (VS Und)) as [Hi| ->]; [apply Henv; auto|exact I].
  - injection E as <-. split; [exact I|reflexivity].
  - destruct (ev_arr m env e) as [w|ex|]; cbn [call] in E; try discriminate. destruct (IH w eq_refl) as [H1 H2].
    destruct w as [x|l]; cbn [app1] in E.
    + unfold num in E. destruct (sem1 o x); try discriminate; injection E as <-; auto.
    + injection E as <-. simpl in *. rewrite map_length; auto.
  - destruct (ev_arr m env e1) as [w1|ex|]; cbn [call] in E; try discriminate. destruct (IH1 w1 eq_refl) as [H1 K1].
    destruct (ev_arr m env e2) as [w2|ex|]; cbn [call] in E; try discriminate. destruct (IH2 w2 eq_refl) as [H2 K2].
    rewrite <- K1, <- K2. destruct w1 as [x|a], w2 as [y|b]; cbn [app2] in E.
    + unfold num in E. destruct (sem2 m o x y); try discriminate; injection E as <-; auto.
    + injection E as <-. simpl in *. rewrite map_length; auto.
    + injection E as <-. simpl in *. rewrite map_length; auto.
    + unfold broadcast in E. simpl in H1, H2. rewrite H1, H2, Nat.eqb_refl in E. injection E as <-.
      simpl. rewrite map2_length; [auto|congruence].
Qed.
Lemma run_kind m n p : straight p = true -> forall env out, (forall w, In w env -> full n w) -> run_arr m p env = Ret out ->
  (forall w, In w out -> full n w) /\ map is_arr out = kinds p (map is_arr env).
Proof.
  induction p as [es|e p IH|]; cbn [straight run_arr kinds]; intros S env out Henv E; [| |discriminate].
  - revert out E. induction es as [|e es IHe]; cbn [ev_arrs map]; intros out E.
    + injection E as <-. split; [intros ? []|reflexivity].
    + destruct (ev_arr m env e) as [v|ex|] eqn:Ev; cbn [call] in E; try discriminate.
      destruct (ev_arrs m env es) as [vs|ex|]; cbn [call] in E; try discriminate. injection E as <-.
      destruct (ev_kind m n env e v Henv Ev) as [H1 H2]. destruct (IHe vs eq_refl) as [H3 H4].
      split; [intros w [<-|Hw]; auto|]. cbn [map]. rewrite H2, H4. reflexivity.
  - destruct (ev_arr m env e) as [v|ex|] eqn:Ev; cbn [call] in E; try discriminate.
    destruct (ev_kind m n env e v Henv Ev) as [H1 H2].
    destruct (IH S (env ++ [v]) out) as [H3 H4]; auto.
    { intros w Hw. apply in_app_or in Hw as [Hw|[<-|[]]]; auto. }
    split; auto. rewrite H4, map_app, <- H2. reflexivity.
Qed.
