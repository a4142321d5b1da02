(** * L_List: what kinds of values a run with lists meets *)
From Verif Require Import Fl M_Array M_Int M_List Spec24 L_Int.
Open Scope fl_scope.

(** [KInt]: a Python number, perhaps an integer. [KPy]: a Python float. [KNp]: a float, perhaps NumPy's. [KArr]: an array. [KLst]: a
    list that stands for its array. [KBad]: a list joined or repeated. [KTop]: anything. *)
Inductive kind := KInt | KPy | KNp | KArr | KLst | KBad | KTop.
Definition of_kind (k : kind) (v : lval) : Prop :=
  match k, v with
  | KInt, (LI _ | LF false _) | KPy, LF false _ | KNp, LF _ _ | KArr, LA _ | (KLst | KBad), LL _ => True
  | KTop, _ => True
  | _, _ => False
  end.
Definition faithful (k : kind) : bool := match k with KBad | KTop => false | _ => true end.
(** [None]: certainly an exception. *)
Definition kapp1 (o : op1) (k : kind) : option kind :=
  let fn := match o with ONeg | OPown _ => false | _ => true end in
  match k with
  | KTop => Some KTop
  | KBad => if fn then Some KTop else None
  | KLst => if fn then Some KArr else None
  | KArr => Some KArr
  | k => Some (if fn then KNp else k)
  end.
Definition kapp2 (o : op2) (k l : kind) : option kind :=
  match o with
  | OMaximum => Some (match k, l with
      | (KTop | KBad), _ | _, (KTop | KBad) => KTop
      | (KLst | KArr), _ | _, (KLst | KArr) => KArr
      | _, _ => KNp end)
  | _ =>
    match k, l with
    | KTop, _ | _, KTop => Some KTop
    | (KLst | KBad), (KLst | KBad) => match o with OAdd => Some KBad | _ => None end
    | (KLst | KBad), KInt | KInt, (KLst | KBad) => match o with OMul => Some KBad | _ => None end
    | (KLst | KBad), KPy | KPy, (KLst | KBad) => None
    | KLst, (KNp | KArr) | (KNp | KArr), KLst => Some KArr
    | KBad, (KNp | KArr) | (KNp | KArr), KBad => Some KTop
    | KArr, _ | _, KArr => Some KArr
    | KNp, _ | _, KNp => Some KNp
    | KInt, KInt => Some (match o with ODiv => KPy | ODivN | OPowN => KNp | _ => KInt end)
    | _, _ => Some (match o with ODivN | OPowN => KNp | _ => KPy end)
    end
  end.
Definition krecip (k : kind) : option kind :=
  match k with KLst | KBad => None | KInt => Some KPy | k => Some k end.
Fixpoint kev (ks : list kind) (e : iexpr) : option kind :=
  match e with
  | IVar n => Some (nth n ks KTop)
  | IFlt _ => Some KPy
  | IInt _ => Some KInt
  | IOp1 o e => match kev ks e with Some k => kapp1 o k | None => None end
  | IOp2 o e1 e2 => match kev ks e1, kev ks e2 with Some k, Some l => kapp2 o k l | _, _ => None end
  | IRecip e => match kev ks e with Some k => krecip k | None => None end
  end.
(** Some expression raises, or all have the values of the arrays. *)
Definition krets (ks : list kind) (es : list iexpr) : bool :=
  existsb (fun e => match kev ks e with None => true | _ => false end) es ||
  forallb (fun e => match kev ks e with Some k => faithful k | None => true end) es.
(** [None]: an exception; [Some false]: perhaps another truth value than arrays give. *)
Definition kcmp (c : cmp) (k l : kind) : option bool :=
  match k, l with
  | (KTop | KBad), _ | _, (KTop | KBad) => Some false
  | KLst, KLst => Some false
  | KLst, (KInt | KPy) | (KInt | KPy), KLst => match c with CEq => Some false | _ => None end
  | KLst, KNp | KNp, KLst => match c with CEq => Some false | _ => Some true end
  | _, _ => Some true
  end.
(** Every run raises. *)
Fixpoint kraises (p : iprog) (ks : list kind) : bool :=
  match p with
  | IRet es => existsb (fun e => match kev ks e with None => true | _ => false end) es
  | ILet e p => match kev ks e with None => true | Some k => kraises p (ks ++ [k]) end
  | IIf c e1 e2 p q =>
      match kev ks e1, kev ks e2 with
      | Some k, Some l => match kcmp c k l with None => true | _ => kraises p ks && kraises q ks end
      | _, _ => true
      end
  end.
(** No run returns anything but what arrays give. *)
Fixpoint honest (p : iprog) (ks : list kind) : bool :=
  match p with
  | IRet es => krets ks es
  | ILet e p => match kev ks e with None => true | Some k => if faithful k then honest p (ks ++ [k]) else kraises p (ks ++ [k]) end
  | IIf c e1 e2 p q =>
      match kev ks e1, kev ks e2 with
      | Some k, Some l =>
          match kcmp c k l with
          | None => true
          | Some b => if b && faithful k && faithful l then honest p ks && honest q ks else kraises p ks && kraises q ks
          end
      | _, _ => true
      end
  end.

Definition sound (k : option kind) (r : outcome lval) (s : outcome val) : Prop :=
  match r with
  | Raise _ => True
  | Unknown => False
  | Ret w => exists kk, k = Some kk /\ of_kind kk w /\ (faithful kk = true -> s = Ret (as_array w))
  end.
Definition shape (v : val) : bool := match v with VS _ => true | VA _ => false end.
Lemma num_back np x k : of_kind k (LF np x) -> sound (Some k) (back np (num x)) (num x).
Proof. intros H. destruct x; cbn; auto; exists k; auto. Qed.
Lemma lapp1_ok o k v r : of_kind k v -> In r (lapp1 o v) -> sound (kapp1 o k) r (app1 o (as_array v)).
Proof.
  intros K I.
  assert (B : forall np kk, (forall x, of_kind kk (LF np x)) -> (forall l, v <> LA l) -> (forall l, v <> LL l) -> r = back np (app1 o (as_array v)) -> sound (Some kk) r (app1 o (as_array v))).
  { intros np kk P N1 N2 ->. destruct v as [z|b x|l|l]; [| |destruct (N1 l); reflexivity|destruct (N2 l); reflexivity]; apply num_back, P. }
  destruct v as [z|np x|l|l].
  - destruct k; try contradiction; destruct o; cbn [lapp1 In] in I; destruct I as [<-|[]]; cbn [kapp1];
      try (apply (B true); [intros; exact I|congruence|congruence|reflexivity]);
      (eexists; split; [reflexivity|split; [exact I|intros _]]; cbn [app1 as_array sem1]; unfold z2f; rewrite ?opp_IZR, ?IZR_pow; reflexivity).
  - destruct k, np; try contradiction; destruct o; cbn [lapp1 In] in I; destruct I as [<-|[]]; cbn [kapp1];
      first [apply (B true); [intros; exact I|congruence|congruence|reflexivity]|apply (B false); [intros; exact I|congruence|congruence|reflexivity]].
  - destruct k; try contradiction; destruct o; cbn [lapp1 In] in I; destruct I as [<-|[]]; eexists; (split; [reflexivity|]); (split; [exact I|]); intros; reflexivity.
  - destruct k; try contradiction; destruct o; cbn [lapp1 In] in I; destruct I as [<-|[]]; try exact I; eexists; (split; [reflexivity|]); (split; [exact I|]); intros; reflexivity.
Qed.
Section Sound.
Variable m : mode.
Lemma app2_num o x y : app2 m o (VS x) (VS y) = num (sem2 m o x y).
Proof. reflexivity. Qed.
Lemma arr_back o v w k : shape v && shape w = false -> (forall l, of_kind k (LA l)) -> sound (Some k) (back true (app2 m o v w)) (app2 m o v w).
Proof.
  intros N P. destruct v as [x|a], w as [y|b]; try discriminate; cbn [app2].
  - eexists; split; [reflexivity|]. auto.
  - eexists; split; [reflexivity|]. auto.
  - destruct (broadcast (sem2 NumPy o) a b) as [l|e|] eqn:E; cbn; auto.
    + eexists; split; [reflexivity|]. auto.
    + unfold broadcast in E. destruct (Nat.eqb _ _); [discriminate|]. destruct a as [|? [|]], b as [|? [|]]; discriminate.
Qed.
Lemma lapp2_ok o k l v w r : of_kind k v -> of_kind l w -> In r (lapp2 m o v w) -> sound (kapp2 o k l) r (app2 m o (as_array v) (as_array w)).
Proof.
  intros K L I. destruct v as [x|[|] x|a|a], w as [y|[|] y|b|b]; destruct k; try contradiction K; destruct l; try contradiction L; clear K L;
  destruct o; cbn [lapp2 In is_np orb] in I; cbn [kapp2];
  try (destruct (y <? 0)%Z eqn:Y; cbn [In] in I);
  repeat match type of I with _ \/ _ => destruct I as [<-|I] | False => destruct I end;
  try exact I;
  try (apply arr_back; [reflexivity|intros; exact I]);
  try (apply num_back; exact I);
  try (eexists; split; [reflexivity|split; [exact I|intros F; try discriminate F]];
       cbn [app2 as_array sem2]; apply Z.ltb_ge in Y || idtac; rewrite ?fpow_int by exact Y; unfold z2f; rewrite ?plus_IZR, ?minus_IZR, ?mult_IZR; reflexivity).
Qed.
Lemma in_bindc {A B} (c : choices A) (f : A -> choices B) r : In r (bindc c f) -> exists o, In o c /\
  match o with Ret v => In r (f v) | Raise e => r = Raise e | Unknown => r = Unknown end.
Proof.
  unfold bindc. intros H. apply in_flat_map in H as (o & H1 & H2). exists o. split; [exact H1|]. destruct o; [exact H2|destruct H2 as [<-|[]]; reflexivity..].
Qed.
Lemma sound_weaken k r s s' : sound k r s -> s = s' -> sound k r s'. Proof. intros H <-. exact H. Qed.
Lemma faithful1 o k kk : kapp1 o k = Some kk -> faithful kk = true -> faithful k = true.
Proof. destruct k; cbn; destruct o; cbn; intros [= <-]; auto. Qed.
Lemma faithful2 o k l kk : kapp2 o k l = Some kk -> faithful kk = true -> faithful k = true /\ faithful l = true.
Proof. destruct k, l; cbn; destruct o; cbn; intros [= <-]; auto. Qed.
Lemma recip_ok k v r : of_kind k v -> In r (lrecip m v) -> sound (krecip k) r (app2 m ODiv (VS #1) (as_array v)).
Proof.
  intros K I. destruct v as [x|[|] x|a|a]; destruct k; try contradiction K; clear K; cbn [lrecip In is_np] in I; destruct I as [<-|[]]; cbn [krecip];
  try exact I; try (apply arr_back; [reflexivity|intros; exact I]); apply num_back; exact I.
Qed.
Lemma recip_kinds k v r : of_kind k v -> In r (lrecip m v) -> sound (kapp2 ODiv KInt k) r (app2 m ODiv (VS #1) (as_array v)).
Proof.
  intros K I. apply (recip_ok _ _ _ K) in I. destruct k; cbn [krecip kapp2] in *; auto.
Qed.
Definition kinds (ks : list kind) (env : list lval) : Prop := forall n, of_kind (nth n ks KTop) (nth n env (LF false Und)).
Lemma nth_as_array n env : nth n (map as_array env) (VS Und) = as_array (nth n env (LF false Und)).
Proof. change (VS Und) with (as_array (LF false Und)). apply map_nth. Qed.
Lemma written_erase fs e : forall e', written fs e' e -> erase e' = erase e.
Proof.
  induction e as [n|r|z|o e IH|o e1 IH1 e2 IH2|e IH]; intros [k|s|y|o' a|o' a b|a] W; cbn in W |- *; try contradiction; try congruence.
  - destruct W as [-> W]. f_equal. apply IH, W.
  - destruct W as [-> [W1 W2]]. f_equal; [apply IH1, W1|apply IH2, W2].
  - destruct W as (-> & -> & _ & W). cbn [erase]. f_equal. apply IH2, W.
  - f_equal. apply IH, W.
Qed.
Lemma lev_ok fs ks env : kinds ks env -> forall e e' r, written fs e' e -> In r (lev m env e') ->
  sound (kev ks e) r (ev_arr m (map as_array env) (erase e)).
Proof.
  intros KE. induction e as [n|q|z|o e IH|o e1 IH1 e2 IH2|e IH]; intros e' r W I; destruct e' as [n'|q'|z'|o' a|o' a b|a]; cbn in W; try contradiction; cbn [lev In] in I.
  - destruct I as [<-|[]]. subst n'. cbn [kev erase ev_arr]. rewrite nth_as_array. eexists; split; [reflexivity|]. split; [apply KE|reflexivity].
  - destruct I as [<-|[]]. subst q'. eexists; split; [reflexivity|]. split; [exact I|reflexivity].
  - destruct I as [<-|[]]. subst q'. eexists; split; [reflexivity|]. split; [exact I|reflexivity].
  - destruct I as [<-|[]]. subst z'. eexists; split; [reflexivity|]. split; [exact I|reflexivity].
  - destruct W as [-> W]. apply in_bindc in I as (ro & I1 & I2). specialize (IH _ _ W I1). destruct ro as [v|x|]; [|subst r; exact I|contradiction].
    destruct IH as (k & Ek & Kv & F). cbn [kev erase ev_arr]. rewrite Ek. specialize (lapp1_ok o k v r Kv I2). unfold sound. destruct r as [w|x|]; auto.
    intros (kk & E1 & E2 & E3). exists kk. split; [exact E1|]. split; [exact E2|]. intros FK. rewrite F by (eapply faithful1; eauto). cbn [call]. auto.
  - destruct W as [-> [W1 W2]]. apply in_bindc in I as (ro & I1 & I2). specialize (IH1 _ _ W1 I1). destruct ro as [v|x|]; [|subst r; exact I|contradiction].
    apply in_bindc in I2 as (ro & I2 & I3). specialize (IH2 _ _ W2 I2). destruct ro as [w|x|]; [|subst r; exact I|contradiction].
    destruct IH1 as (k & Ek & Kv & F1), IH2 as (l & El & Kw & F2). cbn [kev erase ev_arr]. rewrite Ek, El.
    specialize (lapp2_ok o k l v w r Kv Kw I3). unfold sound. destruct r as [u|x|]; auto.
    intros (kk & E1 & E2 & E3). exists kk. split; [exact E1|]. split; [exact E2|]. intros FK. destruct (faithful2 _ _ _ _ E1 FK). rewrite F1 by auto. cbn [call]. rewrite F2 by auto. cbn [call]. auto.
  - destruct W as (-> & -> & _ & W). apply in_bindc in I as (ro & I1 & I2). specialize (IH2 _ _ W I1). destruct ro as [v|x|]; [|subst r; exact I|contradiction].
    destruct IH2 as (k & Ek & Kv & F). cbn [kev erase ev_arr call]. rewrite Ek. specialize (recip_kinds k v r Kv I2). unfold sound. destruct r as [w|x|]; auto.
    intros (kk & E1 & E2 & E3). exists kk. split; [exact E1|]. split; [exact E2|]. intros FK. destruct (faithful2 _ _ _ _ E1 FK). rewrite F by auto. cbn [call]. auto.
  - apply in_bindc in I as (ro & I1 & I2). specialize (IH _ _ W I1). destruct ro as [v|x|]; [|subst r; exact I|contradiction].
    destruct IH as (k & Ek & Kv & F). cbn [kev erase ev_arr call]. rewrite Ek. specialize (recip_ok k v r Kv I2). unfold sound. destruct r as [w|x|]; auto.
    intros (kk & E1 & E2 & E3). exists kk. split; [exact E1|]. split; [exact E2|]. intros FK. assert (faithful k = true) by (destruct k; cbn in E1; try discriminate; injection E1 as <-; auto).
    rewrite F by auto. cbn [call]. auto.
Qed.
Definition as_arrays (o : outcome (list lval)) : outcome (list val) := call! vs := o in Ret (map as_array vs).
Definition raises {A} (o : outcome A) : Prop := exists x, o = Raise x.
Lemma levs_ok fs ks env : kinds ks env -> forall es es' r, writtens fs es' es -> In r (levs m env es') ->
  raises r \/ exists vs, r = Ret vs /\ existsb (fun e => match kev ks e with None => true | _ => false end) es = false /\
    (forallb (fun e => match kev ks e with Some k => faithful k | None => true end) es = true -> ev_arrs m (map as_array env) (map erase es) = Ret (map as_array vs)).
Proof.
  intros KE. induction es as [|e es IH]; intros [|e' es'] r W I; cbn in W; try contradiction; cbn [levs In] in I.
  - destruct I as [<-|[]]. right. eexists. split; [reflexivity|]. split; reflexivity.
  - destruct W as [W1 W2]. apply in_bindc in I as (ro & I1 & I2). assert (S := lev_ok _ _ _ KE _ _ _ W1 I1). destruct ro as [v|x|]; [|left; eexists; exact I2|contradiction].
    destruct S as (k & Ek & Kv & F). apply in_bindc in I2 as (ro & I2 & I3). destruct (IH _ _ W2 I2) as [(x & ->)|(vs & -> & N & G)]; [left; eexists; exact I3|].
    destruct I3 as [<-|[]]. right. eexists. split; [reflexivity|]. cbn [existsb forallb map ev_arrs]. rewrite Ek, N. split; [reflexivity|].
    intros T. apply andb_prop in T as [T1 T2]. rewrite F, G by auto. reflexivity.
Qed.
Lemma kinds_snoc ks env k v : length ks = length env -> kinds ks env -> of_kind k v -> kinds (ks ++ [k]) (env ++ [v]).
Proof.
  intros L K O n. rewrite !nth_snoc, L. destruct (Nat.eqb n (length env)); [exact O|apply K].
Qed.
Lemma truth_ok c k l v w r : of_kind k v -> of_kind l w -> In r (ltruth c v w) ->
  raises r \/ (kcmp c k l <> None /\ (kcmp c k l = Some true -> r = truth c (as_array v) (as_array w))).
Proof.
  intros K L I. destruct v as [x|[|] x|a|a], w as [y|[|] y|b|b]; destruct k; try contradiction K; destruct l; try contradiction L; clear K L;
  destruct c; cbn [ltruth In] in I; cbn [kcmp];
  repeat match type of I with _ \/ _ => destruct I as [<-|I] | False => destruct I end;
  first [left; eexists; reflexivity|right; split; [discriminate|intros Q; first [discriminate Q|reflexivity]]].
Qed.
Lemma raises_ok p : forall p' fs ks env r, length ks = length env -> kinds ks env -> writtenp fs p' p -> kraises p ks = true -> In r (lrun m p' env) -> raises r \/ r = Unknown.
Proof.
  induction p as [es|e p IH|c e1 e2 p IHp q IHq]; intros [es'|e' p'|c' a' b' p' q'] fs ks env r L KE W H I; cbn [writtenp] in W; try contradiction; cbn [kraises lrun] in H, I.
  - destruct (levs_ok fs ks env KE es es' r W I) as [X|(vs & _ & N & _)]; [auto|]. rewrite N in H. discriminate.
  - destruct W as [W1 W2]. apply in_bindc in I as (ro & I1 & I2). assert (S := lev_ok _ _ _ KE _ _ _ W1 I1). destruct ro as [v|x|]; [|left; eexists; exact I2|contradiction].
    destruct S as (k & Ek & Kv & F). rewrite Ek in H. eapply IH; [| |exact W2|exact H|exact I2]; [rewrite !app_length; cbn; lia|apply kinds_snoc; auto].
  - destruct W as (-> & W1 & W2 & W3 & W4). apply in_bindc in I as (ro & I1 & I2). assert (S := lev_ok _ _ _ KE _ _ _ W1 I1). destruct ro as [v|x|]; [|left; eexists; exact I2|contradiction].
    destruct S as (k & Ek & Kv & F). apply in_bindc in I2 as (ro & I2 & I3). assert (S := lev_ok _ _ _ KE _ _ _ W2 I2). destruct ro as [w|x|]; [|left; eexists; exact I3|contradiction].
    destruct S as (l & El & Kw & G). apply in_bindc in I3 as (ro & I3 & I4). rewrite Ek, El in H.
    destruct (truth_ok c k l v w ro Kv Kw I3) as [(x & ->)|(N & _)]; [left; eexists; exact I4|].
    destruct (kcmp c k l) as [t|]; [|contradiction]. apply andb_prop in H as [H1 H2]. destruct ro as [[|]|x|]; [eapply IHp|eapply IHq|left; eexists; exact I4|right; exact I4]; eauto.
Qed.
Lemma honest_ok p : forall p' fs ks env vs, length ks = length env -> kinds ks env -> writtenp fs p' p -> honest p ks = true -> In (Ret vs) (lrun m p' env) ->
  run_arr m (erasep p) (map as_array env) = Ret (map as_array vs).
Proof.
  induction p as [es|e p IH|c e1 e2 p IHp q IHq]; intros [es'|e' p'|c' a' b' p' q'] fs ks env vs L KE W H I; cbn [writtenp] in W; try contradiction; cbn [honest lrun] in H, I.
  - destruct (levs_ok fs ks env KE es es' _ W I) as [(x & X)|(ws & [= <-] & N & G)]; [discriminate|]. unfold krets in H. rewrite N in H. apply G, H.
  - destruct W as [W1 W2]. apply in_bindc in I as (ro & I1 & I2). assert (S := lev_ok _ _ _ KE _ _ _ W1 I1). destruct ro as [v|x|]; [|discriminate|contradiction].
    destruct S as (k & Ek & Kv & F). rewrite Ek in H. assert (KS := kinds_snoc _ _ _ _ L KE Kv). assert (LS : length (ks ++ [k]) = length (env ++ [v])) by (rewrite !app_length; cbn; lia).
    destruct (faithful k) eqn:Fk.
    + cbn [erasep run_arr]. rewrite F by reflexivity. cbn [call]. change ([as_array v]) with (map as_array [v]). rewrite <- map_app. eapply IH; eauto.
    + destruct (raises_ok _ _ _ _ _ _ LS KS W2 H I2) as [(x & X)|X]; discriminate.
  - destruct W as (-> & W1 & W2 & W3 & W4). apply in_bindc in I as (ro & I1 & I2). assert (S := lev_ok _ _ _ KE _ _ _ W1 I1). destruct ro as [v|x|]; [|discriminate|contradiction].
    destruct S as (k & Ek & Kv & F). apply in_bindc in I2 as (ro & I2 & I3). assert (S := lev_ok _ _ _ KE _ _ _ W2 I2). destruct ro as [w|x|]; [|discriminate|contradiction].
    destruct S as (l & El & Kw & G). apply in_bindc in I3 as (ro & I3 & I4). rewrite Ek, El in H.
    destruct (truth_ok c k l v w ro Kv Kw I3) as [(x & ->)|(N & T)]; [discriminate|].
    destruct (kcmp c k l) as [[|]|]; [| |contradiction]; cbn [andb] in H.
    + destruct (faithful k && faithful l)%bool eqn:FF.
      * apply andb_prop in FF as [F1 F2]. apply andb_prop in H as [H1 H2]. cbn [erasep run_arr]. rewrite F, G by auto. cbn [call]. rewrite <- (T eq_refl).
        destruct ro as [[|]|x|]; [|  |discriminate|discriminate]; cbn [call]; [eapply IHp|eapply IHq]; eauto.
      * apply andb_prop in H as [H1 H2]. exfalso. destruct ro as [[|]|x|]; [| |discriminate|discriminate];
        match goal with H : kraises ?pp _ = true, W : writtenp _ ?p2 ?pp, I : In _ (lrun _ ?p2 _) |- _ => destruct (raises_ok _ _ _ _ _ _ L KE W H I) as [(x & X)|X]; discriminate end.
    + apply andb_prop in H as [H1 H2]. exfalso. destruct ro as [[|]|x|]; [| |discriminate|discriminate];
      match goal with H : kraises ?pp _ = true, W : writtenp _ ?p2 ?pp, I : In _ (lrun _ ?p2 _) |- _ => destruct (raises_ok _ _ _ _ _ _ L KE W H I) as [(x & X)|X]; discriminate end.
Qed.
End Sound.

(** ** Every way to choose kinds for n arguments *)
Fixpoint every {A} (f : A -> bool) (l : list A) : bool := match l with [] => true | x :: l => if f x then every f l else false end.
Fixpoint all_kinds (ks : list kind) (n : nat) (f : list kind -> bool) (acc : list kind) : bool :=
  match n with O => f acc | S n => every (fun k => all_kinds ks n f (acc ++ [k])) ks end.
Lemma every_in {A} (f : A -> bool) l : every f l = true -> forall x, In x l -> f x = true.
Proof. induction l as [|a l IH]; cbn; [contradiction|]. destruct (f a) eqn:E; [|discriminate]. intros H x [<-|I]; auto. Qed.
Lemma all_kinds_in ks f l : forall n acc, length l = n -> (forall k, In k l -> In k ks) -> all_kinds ks n f acc = true -> f (acc ++ l) = true.
Proof.
  induction l as [|k l IH]; intros n acc <- P H; cbn [length all_kinds] in H; [rewrite app_nil_r; exact H|].
  apply (every_in _ _ H k) in P as Q; [|left; reflexivity]. change (k :: l) with ([k] ++ l). rewrite app_assoc. eapply IH; [reflexivity| |exact Q]. intros; apply P; right; auto.
Qed.
Definition kind_of (v : lval) : kind := match v with LI _ | LF false _ => KInt | LF true _ => KNp | LA _ => KArr | LL _ => KLst end.
Lemma kind_of_ok env : forall n, of_kind (nth n (map kind_of env) KTop) (nth n env (LF false Und)).
Proof.
  induction env as [|v env IH]; intros [|n]; cbn; auto. destruct v as [|[|]| |]; exact I.
Qed.
Lemma every_env ks f env : (forall v, In v env -> In (kind_of v) ks) -> all_kinds ks (length env) f [] = true -> f (map kind_of env) = true.
Proof.
  intros P H. apply (all_kinds_in ks f (map kind_of env) (length env) []); [apply map_length| |exact H].
  intros k I. apply in_map_iff in I as (v & <- & I). auto.
Qed.
Lemma bindc_some {A B} (c : choices A) (f : A -> choices B) : c <> [] -> (forall v, f v <> []) -> bindc c f <> [].
Proof. destruct c as [|o c]; [contradiction|]. intros _ H E. cbn in E. apply app_eq_nil in E as [E _]. destruct o; [apply (H _ E)|discriminate..]. Qed.
Lemma lapp1_some o v : lapp1 o v <> []. Proof. destruct v as [|[|]| |], o; discriminate. Qed.
Lemma lapp2_some m o v w : lapp2 m o v w <> [].
Proof. destruct o; destruct v as [?|[|] ?|?|?], w as [?|[|] ?|?|?]; cbn; try discriminate. all: destruct (_ <? _)%Z; discriminate. Qed.
Lemma lrecip_some m v : lrecip m v <> []. Proof. destruct v as [|[|]| |]; discriminate. Qed.
Lemma ltruth_some c v w : ltruth c v w <> []. Proof. destruct c, v as [|[|]| |], w as [|[|]| |]; discriminate. Qed.
Lemma lev_some m env e : lev m env e <> [].
Proof. induction e; cbn [lev]; try discriminate; repeat (apply bindc_some; auto; intros); auto using lapp1_some, lapp2_some, lrecip_some. Qed.
Lemma levs_some m env es : levs m env es <> [].
Proof. induction es; cbn [levs]; try discriminate. apply bindc_some; [apply lev_some|]. intros. apply bindc_some; [auto|discriminate]. Qed.
Lemma lrun_some m p : forall env, lrun m p env <> [].
Proof.
  induction p; intros env; cbn [lrun]; [apply levs_some|apply bindc_some; auto using lev_some|].
  apply bindc_some; [apply lev_some|]. intros. apply bindc_some; [apply lev_some|]. intros. apply bindc_some; [apply ltruth_some|]. intros [|]; auto.
Qed.

(** ** Lists that get through. Here [KNp] is certainly a NumPy number; [None]: no claim. *)
Definition is_kind (k : kind) (v : lval) : Prop :=
  match k, v with
  | KInt, (LI _ | LF false _) | KPy, LF false _ | KNp, LF true _ | KArr, LA _ | KLst, LL _ => True
  | _, _ => False
  end.
Definition hear1 (o : op1) (k : kind) : option kind :=
  let fn := match o with ONeg | OPown _ => false | _ => true end in
  match k with
  | KLst => if fn then Some KArr else None
  | KArr => Some KArr
  | KInt | KPy | KNp => Some (if fn then KNp else k)
  | _ => None
  end.
Definition hear2 (o : op2) (k l : kind) : option kind :=
  match o with
  | OMaximum => None
  | _ =>
    match k, l with
    | (KTop | KBad), _ | _, (KTop | KBad) => None
    | KLst, (KNp | KArr) | (KNp | KArr), KLst => Some KArr
    | KLst, _ | _, KLst => None
    | KArr, _ | _, KArr => Some KArr
    | KNp, _ | _, KNp => Some KNp
    | KInt, KInt => Some (match o with ODiv => KPy | ODivN | OPowN => KNp | _ => KInt end)
    | _, _ => Some (match o with ODivN | OPowN => KNp | _ => KPy end)
    end
  end.
Fixpoint hear (ks : list kind) (e : iexpr) : option kind :=
  match e with
  | IVar n => Some (nth n ks KTop)
  | IFlt _ => Some KPy
  | IInt _ => Some KInt
  | IOp1 o e => match hear ks e with Some k => hear1 o k | None => None end
  | IOp2 o e1 e2 => match hear ks e1, hear ks e2 with Some k, Some l => hear2 o k l | _, _ => None end
  | IRecip e => match hear ks e with Some KNp => Some KNp | Some KArr => Some KArr | _ => None end
  end.
Fixpoint hearp (p : iprog) (ks : list kind) : bool :=
  match p with
  | IRet es => forallb (fun e => match hear ks e with Some k => faithful k | None => false end) es
  | ILet e p => match hear ks e with Some k => faithful k && hearp p (ks ++ [k]) | None => false end
  | IIf _ _ _ _ _ => false
  end.
Section Hear.
Variable m : mode.
Lemma in_bind_ret {A B} (c : choices A) (f : A -> choices B) v r : In (Ret v) c -> In r (f v) -> In r (bindc c f).
Proof. intros H1 H2. unfold bindc. apply in_flat_map. exists (Ret v). auto. Qed.
Lemma is_of k v : is_kind k v -> of_kind k v.
Proof. destruct k, v as [|[|]| |]; cbn; auto. Qed.
Definition got (k : kind) (c : choices lval) (u : val) : Prop := exists w, In (Ret w) c /\ is_kind k w /\ as_array w = u.
Lemma got_back np o u k c : o = Ret u -> In (back np o) c -> (match u with VS x => is_kind k (LF np x) | VA l => is_kind k (LA l) end) -> got k c u.
Proof. intros -> H K. destruct u as [x|l]; eexists; (split; [exact H|]); (split; [exact K|reflexivity]). Qed.
Lemma num_shape x u : num x = Ret u -> shape u = true.
Proof. destruct x; cbn; intros [= <-]; reflexivity. Qed.
Lemma app1_shape o v u : app1 o v = Ret u -> shape u = shape v.
Proof. destruct v; cbn [app1]; [apply num_shape|intros [= <-]; reflexivity]. Qed.
Lemma app2_shape o v w u : app2 m o v w = Ret u -> shape u = (shape v && shape w)%bool.
Proof.
  destruct v as [x|a], w as [y|b]; cbn [app2]; [apply num_shape|intros [= <-]; reflexivity..|].
  destruct (broadcast (sem2 NumPy o) a b); cbn [call]; [intros [= <-]; reflexivity|discriminate..].
Qed.
Lemma got_int k c z u s : c = [Ret (LI z)] -> s = Ret (as_array (LI z)) -> s = Ret u -> is_kind k (LI z) -> got k c u.
Proof. intros -> -> [= <-] K. exists (LI z). split; [left; reflexivity|]. auto. Qed.
Lemma hear1_ok o k kk v u : is_kind k v -> hear1 o k = Some kk -> app1 o (as_array v) = Ret u -> got kk (lapp1 o v) u.
Proof.
  intros K H E. assert (S := fun r => lapp1_ok o k v r (is_of _ _ K)). assert (SH := app1_shape _ _ _ E).
  assert (B : forall np, lapp1 o v = [back np (app1 o (as_array v))] -> (match u with VS x => is_kind kk (LF np x) | VA l => is_kind kk (LA l) end) -> got kk (lapp1 o v) u).
  { intros np Q C. rewrite Q. eapply got_back; [exact E|left; reflexivity|exact C]. }
  assert (N : forall z, lapp1 o v = [Ret (LI z)] -> kapp1 o k = Some kk -> is_kind kk (LI z) -> faithful kk = true -> got kk (lapp1 o v) u).
  { intros z Q C D F. assert (S' : In (Ret (LI z)) (lapp1 o v)) by (rewrite Q; left; reflexivity). apply S in S' as (q & C' & _ & S'). rewrite C in C'. injection C' as <-.
    eapply got_int; [exact Q|exact (S' F)|exact E|exact D]. }
  clear S E. destruct v as [z|[|] x|l|l], k; try contradiction K; clear K; destruct o; try discriminate H; injection H as <-; cbn [as_array shape] in SH; destruct u as [t|t]; try discriminate SH;
  first [apply (B true); [reflexivity|exact I]|apply (B false); [reflexivity|exact I]|eapply N; [reflexivity|reflexivity|exact I|reflexivity]].
Qed.
Lemma hear2_ok o k l kk v w u : is_kind k v -> is_kind l w -> hear2 o k l = Some kk -> app2 m o (as_array v) (as_array w) = Ret u -> got kk (lapp2 m o v w) u.
Proof.
  intros K L H E. assert (S := fun r => lapp2_ok m o k l v w r (is_of _ _ K) (is_of _ _ L)). assert (SH := app2_shape _ _ _ _ E).
  assert (B : forall np, In (back np (app2 m o (as_array v) (as_array w))) (lapp2 m o v w) -> (match u with VS x => is_kind kk (LF np x) | VA l => is_kind kk (LA l) end) -> got kk (lapp2 m o v w) u).
  { intros np Q C. eapply got_back; [exact E|exact Q|exact C]. }
  assert (N : forall z, lapp2 m o v w = [Ret (LI z)] -> kapp2 o k l = Some kk -> is_kind kk (LI z) -> faithful kk = true -> got kk (lapp2 m o v w) u).
  { intros z Q C D F. assert (S' : In (Ret (LI z)) (lapp2 m o v w)) by (rewrite Q; left; reflexivity). apply S in S' as (q & C' & _ & S'). rewrite C in C'. injection C' as <-.
    eapply got_int; [exact Q|exact (S' F)|exact E|exact D]. }
  clear S E. destruct v as [z|[|] x|a|a], k; try contradiction K; clear K; destruct w as [y|[|] b|b|b], l; try contradiction L; clear L;
  destruct o; try discriminate H; injection H as <-; cbn [as_array shape andb] in SH; destruct u as [t|t]; try discriminate SH;
  first [apply (B true); [left; reflexivity|exact I]|apply (B true); [right; left; reflexivity|exact I]|apply (B false); [left; reflexivity|exact I]
        |eapply N; [reflexivity|reflexivity|exact I|reflexivity]|idtac].
  all: destruct (y <? 0)%Z eqn:Y; [apply (B false); [cbn [lapp2]; rewrite Y; left; reflexivity|exact I]|eapply N; [cbn [lapp2]; rewrite Y; reflexivity|reflexivity|exact I|reflexivity]].
Qed.
Definition are (ks : list kind) (env : list lval) : Prop := forall n, is_kind (nth n ks KTop) (nth n env (LF false Und)) \/ nth n ks KTop = KTop.
Lemma hear_ok ks env : are ks env -> forall e k u, hear ks e = Some k -> faithful k = true -> ev_arr m (map as_array env) (erase e) = Ret u -> got k (lev m env e) u.
Proof.
  intros A. induction e as [n|q|z|o e IH|o e1 IH1 e2 IH2|e IH]; intros k u H F E; cbn [hear erase ev_arr lev] in *.
  - injection H as <-. destruct (A n) as [K|K]; [|rewrite K in F; discriminate]. rewrite nth_as_array in E. injection E as <-.
    eexists. split; [left; reflexivity|]. auto.
  - injection H as <-. injection E as <-. eexists. split; [left; reflexivity|]. split; [exact I|reflexivity].
  - injection H as <-. injection E as <-. eexists. split; [left; reflexivity|]. split; [exact I|reflexivity].
  - destruct (hear ks e) as [k1|]; [|discriminate]. destruct (ev_arr m (map as_array env) (erase e)) as [v| |]; [|discriminate..]. cbn [call] in E.
    assert (F1 : faithful k1 = true) by (destruct k1; try discriminate H; reflexivity).
    destruct (IH k1 v eq_refl F1 eq_refl) as (w & W1 & W2 & <-). destruct (hear1_ok o k1 k w u W2 H E) as (w' & V1 & V2). exists w'. split; [eapply in_bind_ret; eauto|exact V2].
  - destruct (hear ks e1) as [k1|]; [|discriminate]. destruct (hear ks e2) as [k2|]; [|discriminate].
    destruct (ev_arr m (map as_array env) (erase e1)) as [v1| |]; [|discriminate..]. cbn [call] in E.
    destruct (ev_arr m (map as_array env) (erase e2)) as [v2| |]; [|discriminate..]. cbn [call] in E.
    assert (F1 : faithful k1 = true) by (destruct o, k1, k2; try discriminate H; reflexivity).
    assert (F2 : faithful k2 = true) by (destruct o, k1, k2; try discriminate H; reflexivity).
    destruct (IH1 k1 v1 eq_refl F1 eq_refl) as (w1 & W1 & W2 & <-). destruct (IH2 k2 v2 eq_refl F2 eq_refl) as (w2 & X1 & X2 & <-).
    destruct (hear2_ok o k1 k2 k w1 w2 u W2 X2 H E) as (w' & V1 & V2). exists w'. split; [eapply in_bind_ret; [exact W1|eapply in_bind_ret; eauto]|exact V2].
  - destruct (hear ks e) as [k1|]; [|discriminate]. destruct (ev_arr m (map as_array env) (erase e)) as [v| |]; [|discriminate..]. cbn [call] in E.
    assert (F1 : faithful k1 = true) by (destruct k1; try discriminate H; reflexivity).
    destruct (IH k1 v eq_refl F1 eq_refl) as (w & W1 & W2 & <-).
    assert (G : got k (lrecip m w) u).
    { assert (SH := app2_shape _ _ _ _ E). destruct k1; try discriminate H; injection H as <-; destruct w as [|[|]| |]; try contradiction W2;
        cbn [as_array shape andb] in SH; destruct u; try discriminate SH; (eapply got_back; [exact E|left; reflexivity|exact I]). }
    destruct G as (w' & V1 & V2). exists w'. split; [eapply in_bind_ret; eauto|exact V2].
Qed.
Lemma hears_ok ks env : are ks env -> forall es us, forallb (fun e => match hear ks e with Some k => faithful k | None => false end) es = true ->
  ev_arrs m (map as_array env) (map erase es) = Ret us -> exists vs, In (Ret vs) (levs m env es) /\ map as_array vs = us.
Proof.
  intros A. induction es as [|e es IH]; intros us H E; cbn [forallb map ev_arrs levs] in *.
  - injection E as <-. exists []. split; [left; reflexivity|reflexivity].
  - apply andb_prop in H as [H1 H2]. destruct (hear ks e) as [k|] eqn:K; [|discriminate].
    destruct (ev_arr m (map as_array env) (erase e)) as [v| |] eqn:V; [|discriminate..]. cbn [call] in E.
    destruct (ev_arrs m (map as_array env) (map erase es)) as [vs| |] eqn:VS; [|discriminate..]. cbn [call] in E. injection E as <-.
    destruct (hear_ok ks env A e k v K H1 V) as (w & W1 & _ & <-). destruct (IH vs H2 eq_refl) as (ws & W2 & <-).
    exists (w :: ws). split; [|reflexivity]. eapply in_bind_ret; [exact W1|]. eapply in_bind_ret; [exact W2|left; reflexivity].
Qed.
Lemma hearp_ok p : forall ks env us, length ks = length env -> are ks env -> hearp p ks = true -> run_arr m (erasep p) (map as_array env) = Ret us ->
  exists vs, In (Ret vs) (lrun m p env) /\ map as_array vs = us.
Proof.
  induction p as [es|e p IH|c e1 e2 p IHp q IHq]; intros ks env us L A H E; cbn [hearp erasep run_arr lrun] in *; [eapply hears_ok; eauto| |discriminate].
  destruct (hear ks e) as [k|] eqn:K; [|discriminate]. apply andb_prop in H as [H1 H2].
  destruct (ev_arr m (map as_array env) (erase e)) as [v| |] eqn:V; [|discriminate..]. cbn [call] in E.
  destruct (hear_ok ks env A e k v K H1 V) as (w & W1 & W2 & <-).
  change [as_array w] with (map as_array [w]) in E. rewrite <- map_app in E.
  destruct (IH (ks ++ [k]) (env ++ [w]) us) as (vs & I1 & I2); auto; [rewrite !app_length; cbn; lia| |].
  - intros n. rewrite !nth_snoc, L. destruct (Nat.eqb n (length env)); [left; exact W2|apply A].
  - exists vs. split; [eapply in_bind_ret; eauto|exact I2].
Qed.
End Hear.
Lemma kind_of_is env : are (map kind_of env) env.
Proof. induction env as [|v env IH]; intros [|n]; cbn; auto. left. destruct v as [|[|]| |]; exact I. Qed.
