(** The comparison methods of the container objects: tlist.go:235-242, tset.go:104-116, tmap.go:736-748. *)
From Coq Require Import ZArith List Bool.
From Verif Require Import Base GoVal Compare.
Open Scope Z_scope.

(** CompareTo of a container [p] whose type is [t]: LIST in tlist.go:240-242, SET in tset.go:114-116, MAP in tmap.go:746-748. *)
Definition cont_CompareTo (x : ext) (fuel : nat) (t : Z) (p other : any) : outcome (Z * bool) := Compare x fuel t p other.
(** Equals, tlist.go:235-238, tset.go:109-112, tmap.go:741-744. *)
Definition cont_Equals (x : ext) (fuel : nat) (t : Z) (p other : any) : outcome bool :=
  ' (c, cok) <- cont_CompareTo x fuel t p other ;; Ok (cok && (c =? 0)).
(** Less, tset.go:104-107, tmap.go:736-739. *)
Definition cont_Less (x : ext) (fuel : nat) (t : Z) (p other : any) : outcome bool :=
  ' (cmp, ok) <- cont_CompareTo x fuel t p other ;; Ok (ok && (0 <? cmp)).
