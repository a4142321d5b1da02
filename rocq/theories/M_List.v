(** * M_List: Python lists as arguments.

    A caller may write [poi([36.0, 37.0], 44.0)] with a plain Python list where an array is meant. NumPy functions turn a list
    into an array, and so does an array that meets a list in [+], [-], [*], [/], [**]. But a list is not an array: two lists
    added are joined, a list times an integer is repeated, and everything else raises TypeError. This file runs the programs of
    M_Array.v, with their literals as in M_Int.v, on numbers, arrays and lists.

    What a NumPy number does with a list depends on the operation and the version of NumPy: it raises TypeError or takes the
    list as an array. A run therefore has several possible outcomes, [choices].

    Simplifications: lists of floats, arrays of one dimension; two lists compared may give either truth value, and so may a list
    compared with a NumPy number for equality. *)
From Verif Require Import Fl M_Array M_Int.
Open Scope fl_scope.

(** A Python integer; a number ([np]: a NumPy number, otherwise a Python float); an array; a list. *)
Inductive lval := LI (z : Z) | LF (np : bool) (x : fl) | LA (l : list fl) | LL (l : list fl).
Definition as_array (v : lval) : val :=
  match v with LI z => VS (z2f z) | LF _ x => VS x | LA l | LL l => VA l end.
Definition is_np (v : lval) : bool := match v with LF np _ => np | LA _ => true | _ => false end.
Definition back (np : bool) (o : outcome val) : outcome lval :=
  call! v := o in Ret (match v with VS x => LF np x | VA l => LA l end).
Fixpoint copies (n : nat) (l : list fl) : list fl := match n with O => [] | S n => l ++ copies n l end.

(** The possible outcomes. *)
Definition choices (A : Type) := list (outcome A).
Definition bindc {A B} (c : choices A) (f : A -> choices B) : choices B :=
  flat_map (fun o => match o with Ret v => f v | Raise e => [Raise e] | Unknown => [Unknown] end) c.

Definition lapp1 (o : op1) (v : lval) : choices lval :=
  match v, o with
  | LL _, (ONeg | OPown _) => [Raise TypeError]
  | LI z, ONeg => [Ret (LI (- z))]
  | LI z, OPown n => [Ret (LI (z ^ Z.of_nat n))]
  | LF np _, (ONeg | OPown _) => [back np (app1 o (as_array v))]
  | _, _ => [back true (app1 o (as_array v))]
  end.
Section Run.
Variable m : mode.
Definition lapp2 (o : op2) (v w : lval) : choices lval :=
  let arrays np := back np (app2 m o (as_array v) (as_array w)) in
  match o with
  | OMaximum => [arrays true]
  | _ =>
    match v, w with
    | LL a, LL b => match o with OAdd => [Ret (LL (a ++ b))] | _ => [Raise TypeError] end
    | LL a, LI n | LI n, LL a => match o with OMul => [Ret (LL (copies (Z.to_nat n) a))] | _ => [Raise TypeError] end
    | LL _, LF false _ | LF false _, LL _ => [Raise TypeError]
    | LL _, LF true _ | LF true _, LL _ => [Raise TypeError; arrays true]
    | LI x, LI y =>
      match o with
      | OAdd => [Ret (LI (x + y))]
      | OSub => [Ret (LI (x - y))]
      | OMul => [Ret (LI (x * y))]
      | OPow => if (y <? 0)%Z then [arrays false] else [Ret (LI (x ^ y))]
      | ODivN | OPowN => [arrays true]
      | _ => [arrays false]
      end
    | _, _ => [arrays (is_np v || is_np w || match o with ODivN | OPowN => true | _ => false end)]
    end
  end.
(** [v**-1]. *)
Definition lrecip (v : lval) : choices lval :=
  match v with LL _ => [Raise TypeError] | _ => [back (is_np v) (app2 m ODiv (VS #1) (as_array v))] end.
Fixpoint lev (env : list lval) (e : iexpr) : choices lval :=
  match e with
  | IVar n => [Ret (nth n env (LF false Und))]
  | IFlt r => [Ret (LF false (Fin r))]
  | IInt z => [Ret (LI z)]
  | IOp1 o e => bindc (lev env e) (lapp1 o)
  | IOp2 o e1 e2 => bindc (lev env e1) (fun v => bindc (lev env e2) (lapp2 o v))
  | IRecip e => bindc (lev env e) lrecip
  end.
Fixpoint levs (env : list lval) (es : list iexpr) : choices (list lval) :=
  match es with
  | [] => [Ret []]
  | e :: es => bindc (lev env e) (fun v => bindc (levs env es) (fun vs => [Ret (v :: vs)]))
  end.
(** The truth value of a comparison: a list is never equal to a Python number, and is not ordered with one. *)
Definition ltruth (c : cmp) (v w : lval) : choices bool :=
  let arrays := truth c (as_array v) (as_array w) in
  match v, w with
  | LL _, LL _ => [Ret true; Ret false]
  | LL _, LA _ | LA _, LL _ => [arrays]
  | LL _, (LI _ | LF false _) | (LI _ | LF false _), LL _ => match c with CEq => [Ret false] | _ => [Raise TypeError] end
  | LL _, LF true _ | LF true _, LL _ => match c with CEq => [Ret true; Ret false; arrays] | _ => [Raise TypeError; arrays] end
  | _, _ => [arrays]
  end.
Fixpoint lrun (p : iprog) (env : list lval) : choices (list lval) :=
  match p with
  | IRet es => levs env es
  | ILet e p => bindc (lev env e) (fun v => lrun p (env ++ [v]))
  | IIf c e1 e2 p q =>
      bindc (lev env e1) (fun v => bindc (lev env e2) (fun w => bindc (ltruth c v w) (fun b =>
      if b then lrun p env else lrun q env)))
  end.
End Run.
