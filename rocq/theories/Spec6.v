(** * Spec6: specification notions for the interpretation templates (QI.py). Nothing here refers to the model of the
    code. *)
From Verif Require Import Fl Spec.
Open Scope R_scope.

(** Hill average: mean of the arithmetic and the harmonic mean. *)
Definition hill (fs Ms : list R) : R := (wsum fs Ms + / wsum fs (map Rinv Ms)) / 2.
(** A sand of critical porosity [pc] and bulk shale volume [v], cemented down to porosity [p]: fractions of shale, grain
    and cement in the solid. *)
Definition cemented (v pc p : R) : list R := [v / (1 - p); (1 - pc - v) / (1 - p); (pc - p) / (1 - p)].
(** The straight line through (x0,y0) and (x1,y1), at x. *)
Definition lerp (x0 y0 x1 y1 x : R) : R := y0 + (x - x0) / (x1 - x0) * (y1 - y0).
(** Reading a cement volume off a family of lines: [lines] are pairs (cement volume, velocity at the sample's porosity),
    [v] the velocity of the sample. Below the first line 0, above the last one 0.1, otherwise linear interpolation
    between the nearest slower and the nearest faster line. *)
Inductive cement_read (lines : list (R * R)) (v : R) : R -> Prop :=
| read_below p0 L : lines = p0 :: L -> v <= snd p0 -> cement_read lines v 0
| read_above p0 L p1 : lines = p0 :: L -> snd p0 < v -> last lines p0 = p1 -> snd p1 <= v -> cement_read lines v 0.1
| read_inside p0 L s a s' b : lines = p0 :: L -> snd p0 < v -> v < snd (last lines p0) ->
    In (s, a) lines -> In (s', b) lines -> a < v < b ->
    (forall p, In p lines -> snd p <= a \/ snd p = v \/ b <= snd p) ->
    cement_read lines v (lerp a s b s' v).
(** A mixture of two fluids: Wood's law for the modulus, volume average of the density. *)
Definition wood2 (s K1 K2 : R) : R := 1 / (s / K1 + (1 - s) / K2).
