(** The hexagons of growth with one diagonal. *)
From Verif Require Import Prelude SpecGrid.
Local Open Scope Z_scope.

(** [d] is made of [k] unit steps along the axes or along the diagonal [e], forth or back. *)
Definition hex_within (e : list Z) (k : Z) (d : list Z) : Prop :=
  exists m, Z.abs m + fold_right (fun a t => Z.abs a + t) 0 (shift d (map (fun a => - m * a) e)) <= k.

(** The diagonal of the [k]-th member of the pseudo-hexagonal neighbourhoods on grids of [n] dimensions. *)
Definition hex_diagonal (n k : nat) (e : list Z) : Prop :=
  n = 2%nat /\ nth_error [[1; 1]; [-1; 1]] k = Some e \/
  n = 3%nat /\ nth_error [[-1; -1; 1]; [-1; 1; 1]; [1; 1; 1]; [1; -1; 1]] k = Some e.

(** The number of these members. *)
Definition hex_members (n : nat) : nat := if Nat.eqb n 2 then 2%nat else 4%nat.
