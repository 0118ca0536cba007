(** Vocabulary for the placement of nuclei (C113, C114). *)
From Coq Require Import Reals.
From Verif Require Import Prelude Dict RealArith StateModel StructModel SpecGrid SpecSetup.
Local Open Scope Z_scope.

(** Candidates are taken one after the other, unless one taken before is the
    same or too near. *)
Inductive greedy (near : Z -> Z -> Prop) : list Z -> list Z -> Prop :=
  | greedy_none : greedy near [] []
  | greedy_skip ds l d : greedy near ds l -> (exists j, In j l /\ (j = d \/ near d j)) -> greedy near (ds ++ [d]) l
  | greedy_take ds l d : greedy near ds l -> (forall j, In j l -> j <> d /\ ~ near d j) -> greedy near (ds ++ [d]) (l ++ [d]).

(** The first [n] candidates for site ids among [k] sites. *)
Definition candidates (rnd : nat -> nat) (k : Z) (n : Z) : list Z :=
  map (fun t => Z.of_nat (rnd t) mod k) (seq 0 (Z.to_nat n)).

(** Two different sites not farther apart than the buffer, if there is one. *)
Definition too_near (s : structure R) (dim : nat) (buffer : option Z) (i j : Z) : Prop :=
  i <> j /\ exists r x y, buffer = Some r /\ length x = dim /\ length y = dim /\ cell s x i /\ cell s y j /\ Forall2 (fun a b => Z.abs (a - b) <= r) x y.

(** In round [k] (0, 1, ...) every phase whose share exceeds [k] has its turn, in
    the order of the list; the first [n] turns. *)
Definition turn (k : nat) (share : string * R) : bool := if Rlt_dec (IZR (Z.of_nat k)) (snd share) then true else false.
Definition round (shares : list (string * R)) (k : nat) : list string := map fst (filter (turn k) shares).
Definition in_turn (n : Z) (shares : list (string * R)) : list string :=
  firstn (Z.to_nat n) (flat_map (round shares) (seq 0 (Z.to_nat n))).

(** Nucleus number [m] has phase number [m], all other sites the background. *)
Definition nucleated {F} (s : structure F) (st : sstate) (bg : string) (nuclei : list Z) (phases : list string) : Prop :=
  configuration s st (fun i p => (exists m, nth_error nuclei m = Some i /\ nth_error phases m = Some p) \/ (~ In i nuclei /\ p = bg)).
