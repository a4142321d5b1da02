(** * Spec19: elastic energy of a stack of isotropic layers. *)
From Verif Require Import Fl Spec.
Open Scope R_scope.

(** Twice the energy density of an isotropic layer at the strain e (Voigt notation, engineering shear strains). *)
Definition layer_energy (x : layer) (e : nat -> R) : R :=
  ll x * (e 0%nat + e 1%nat + e 2%nat)^2 + 2 * lg x * (e 0%nat ^ 2 + e 1%nat ^ 2 + e 2%nat ^ 2)
  + lg x * (e 3%nat ^ 2 + e 4%nat ^ 2 + e 5%nat ^ 2).
(** A strain for every layer. The layers are stacked along axis 3 and do not slide: the strains within the plane are the
    same in all of them. The other strains may differ from layer to layer and have the prescribed average. *)
Definition field := list (layer * (nat -> R)).
Definition compatible (e : nat -> R) (F : field) : Prop :=
  Forall (fun p => snd p 0%nat = e 0%nat /\ snd p 1%nat = e 1%nat /\ snd p 5%nat = e 5%nat) F /\
  (forall i, (2 <= i <= 4)%nat -> sumf (fun p => lv (fst p) * snd p i) F = e i * sumf lv (map fst F)).
Definition mean_energy (F : field) : R :=
  sumf (fun p => lv (fst p) * layer_energy (fst p) (snd p)) F / sumf lv (map fst F).
(** Bulk modulus of a layer. *)
Definition lk (x : layer) : R := ll x + 2/3 * lg x.
(** The layers that are present have one shear modulus. *)
Definition same_shear (L : list layer) : Prop := exists G, Forall (fun x => 0 < lv x -> lg x = G) L.
