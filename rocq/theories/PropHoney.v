(** Properties C44, C74 and C96: honeycomb tilings, states made from a structure. *)
From Coq Require Import Reals Lra.
From Flocq Require Import Core BinarySingleNaN.
From Verif Require Import Prelude Dict Val Arith RVec RealArith LatticeModel StructModel StateModel NbModel GridModel SpecGeom SpecNb SpecHoney FloatArith SpecFloat64 SpecHoneyFloat FloatInv FloatHoney NbDemo HoneyFacts StateStruct.
Local Open Scope Z_scope.

(** C44. Every cell of an n x m honeycomb (n, m >= 3) has exactly six neighbours: the cells one step away along the three axes, wrapping round; all at distance 1 up to 0.004. *)
Theorem C44_honeycomb : forall n m, 3 <= n -> 3 <= m ->
  exists s N, honeycomb n m s /\ Z.of_nat (length (sites s None)) = n * m /\
    nb_get RA (HoneycombNeighborhoodBuilder RA) s None = Ok N /\
    (forall k x, get_site s k = Some x -> exists i j, 0 <= i < n /\ 0 <= j < m /\ k = hex_id n m i j) /\
    forall i j, 0 <= i < n -> 0 <= j < m ->
      get_site s (hex_id n m i j) = Some (mkSite "A" (map round3 (hex_centre i j)) (hex_id n m i j)) /\
      NoDup (six n m i j) /\ length (six n m i j) = 6%nat /\
      neighbours N (hex_id n m i j) (fun k => In k (six n m i j)) /\
      weights N (hex_id n m i j) (fun k w => exists d, w = Some d /\ (Rabs (d - 1) <= 4/1000)%R).
Proof. exact C44_lemma. Qed.
Print Assumptions C44_honeycomb.
Example C44_example : hex_id 3 4 0 0 = 0 /\ six 3 4 0 0 = [4; 8; 1; 3; 7; 9] /\ exists s N, honeycomb 3 4 s /\
  nb_get RA (HoneycombNeighborhoodBuilder RA) s None = Ok N /\ neighbours N 0 (fun k => In k [4; 8; 1; 3; 7; 9]).
Proof.
  split; [reflexivity|]. split; [reflexivity|]. destruct (C44_lemma 3 4) as (s & N & H & _ & E & _ & G); try lia.
  exists s, N. split; auto. split; auto. apply (G 0 0); lia.
Qed.

(** C74. A state made from a structure has exactly one entry per site, holding only the id, and no general data. *)
Theorem C74_from_struct : forall L s, built RA L s -> let st := from_struct (p_ids s) in
  site_ids st = map (fun x => KInt (s_id x)) (sites s None) /\
  (forall i, get_site_state st (KInt i) = match get_site s i with Some _ => Some [(SITE_ID, VInt i)] | None => None end) /\
  (forall k, get_site_state st (KStr k) = None) /\ get_general_state st = [].
Proof. exact C74_lemma. Qed.
Print Assumptions C74_from_struct.
Example C74_example : built RA open_line two /\ get_site_state (from_struct (p_ids two)) (KInt 1) = Some [(SITE_ID, VInt 1)].
Proof. split; [exact two_built|]. destruct (C74_lemma _ _ two_built) as (_ & H & _). rewrite H. now rewrite (proj2 two_sites). Qed.

(** C96. In binary64 too every cell of an n x m honeycomb (3 <= n, m <= 2^20) has exactly its six neighbours, whatever routine inverts the matrix, if it is accurate enough. *)
Theorem C96_honeycomb_float : forall inv n m, (3 <= n <= 2 ^ 20)%Z -> (3 <= m <= 2 ^ 20)%Z -> accurate n m inv ->
  exists s G, fl_honeycomb inv n m s /\ Z.of_nat (length (sites s None)) = (n * m)%Z /\
    nb_get (FAi inv) (HoneycombNeighborhoodBuilder (FAi inv)) s None = Ok G /\
    (forall k x, get_site s k = Some x -> exists i j, (0 <= i < n)%Z /\ (0 <= j < m)%Z /\ k = hex_id n m i j) /\
    forall i j, (0 <= i < n)%Z -> (0 <= j < m)%Z ->
      (exists loc, get_site s (hex_id n m i j) = Some (mkSite "A" loc (hex_id n m i j)) /\ close_to loc (hex_centre i j)) /\
      NoDup (six n m i j) /\ length (six n m i j) = 6%nat /\
      neighbours G (hex_id n m i j) (fun k => In k (six n m i j)) /\
      weights G (hex_id n m i j) (fun k w => exists d, w = Some d /\ is_finite d = true /\ (Rabs (B2R d - 1) <= 3 / 1000)%R).
Proof. exact C96_lemma. Qed.
Print Assumptions C96_honeycomb_float.
Example C96_example : exists s N, fl_honeycomb f_inv 3 4 s /\ nb_get (FAi f_inv) (HoneycombNeighborhoodBuilder (FAi f_inv)) s None = Ok N /\ neighbours N 0 (fun k => In k [4; 8; 1; 3; 7; 9]).
Proof.
  destruct (C96_lemma f_inv 3 4) as (s & N & H & _ & E & _ & G); try lia; [apply C96_inverse_lemma; lia|].
  exists s, N. split; [exact H|]. split; [exact E|]. apply (G 0 0); lia.
Qed.

(** C96. Gauss-Jordan elimination with partial pivoting is accurate enough. *)
Theorem C96_inverse : forall n m : Z, (1 <= n <= 2 ^ 20)%Z -> (1 <= m <= 2 ^ 20)%Z -> accurate n m f_inv.
Proof. exact C96_inverse_lemma. Qed.
Print Assumptions C96_inverse.
Example C96_inverse_example : FAi f_inv = FA.
Proof. reflexivity. Qed.
