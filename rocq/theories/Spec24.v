(** * Spec24: what it means for a function to accept whole numbers. *)
From Verif Require Import Fl M_Array M_Int.

(** The results with every integer made a float. *)
Definition as_floats (o : outcome (list ival)) : outcome (list val) := call! vs := o in Ret (map to_float vs).

(** No integer arrays: Python integers of any size, floats, arrays of floats. *)
Definition python_numbers (env : list ival) : Prop := forall v, In v env -> match v with AI _ => False | _ => True end.
(** A float, an array of floats, or integers no greater than [b] in absolute value. *)
Definition within (b : Z) (v : ival) : Prop :=
  match v with NI z => (Z.abs z <= b)%Z | AI l => forall z, In z l -> (Z.abs z <= b)%Z | _ => True end.
Definition is_float (v : ival) : Prop := match v with NF _ | AF _ => True | _ => False end.

(** Whether the value of an expression is a float whatever the arguments; [fs] says it of the names assigned so far. *)
Fixpoint floaty (fs : list bool) (e : iexpr) : bool :=
  match e with
  | IVar n => nth n fs false
  | IFlt _ | IRecip _ => true
  | IInt _ => false
  | IOp1 (ONeg | OPown _) e => floaty fs e
  | IOp1 _ _ => true
  | IOp2 (ODiv | ODivN) _ _ => true
  | IOp2 _ e1 e2 => floaty fs e1 || floaty fs e2
  end.
(** Two ways to write the same formula: [2.0] for [2], [x**-1] for [1/x] where x is a float whatever the arguments. *)
Fixpoint written (fs : list bool) (e' e : iexpr) : Prop :=
  match e', e with
  | IVar n, IVar k => n = k
  | IFlt r, IFlt s => r = s
  | IInt z, IInt y => z = y
  | IFlt r, IInt z => r = IZR z
  | IOp1 o a, IOp1 o' b => o = o' /\ written fs a b
  | IOp2 o a a', IOp2 o' b b' => o = o' /\ written fs a b /\ written fs a' b'
  | IRecip a, IRecip b => written fs a b
  | IRecip a, IOp2 o c b => o = ODiv /\ c = IInt 1 /\ floaty fs b = true /\ written fs a b
  | _, _ => False
  end.
Fixpoint writtens (fs : list bool) (es' es : list iexpr) : Prop :=
  match es', es with
  | [], [] => True
  | a :: es', b :: es => written fs a b /\ writtens fs es' es
  | _, _ => False
  end.
Fixpoint writtenp (fs : list bool) (p' p : iprog) : Prop :=
  match p', p with
  | IRet es', IRet es => writtens fs es' es
  | ILet e' p', ILet e p => written fs e' e /\ writtenp (fs ++ [floaty fs e]) p' p
  | IIf c' a' b' p' q', IIf c a b p q => c' = c /\ written fs a' a /\ written fs b' b /\ writtenp fs p' p /\ writtenp fs q' q
  | _, _ => False
  end.
(** The lines of a function of n arguments, written in some such way. *)
Definition a_text_of (n : nat) (p' p : iprog) : Prop := writtenp (repeat false n) p' p.
