(** Model of src/pylattica/core/distance_map.py, core/neighborhoods.py and
    core/neighborhood_builders.py. *)
From Verif Require Import Prelude Arith LatticeModel StructModel.

Section Distances.
  Context {F : Type} (A : arith F).
  Instance Eqb_vec_nb : Eqb (list F) := vec_eqb A.

  (** src/pylattica/core/distance_map.py:6-23 [distance] *)
  Definition distance (p q : list F) : res F :=
    do d <- bcast (a_sub A) p q; Ok (a_sqrt A (dot A d d)).

  (** src/pylattica/core/distance_map.py:92-96 [EuclideanDistanceMap._distance] *)
  Definition euclidean_distance (p q : list F) : res F :=
    do x <- distance p q; Ok (roundk A 100 x).

  (** src/pylattica/core/distance_map.py:99-103 [ManhattanDistanceMap._distance] *)
  Definition manhattan_distance (p q : list F) : res F :=
    do d <- bcast (a_sub A) p q; Ok (fold_right (a_add A) (a_ofZ A 0) (map (a_abs A) d)).

  (** src/pylattica/core/distance_map.py:44-74 [DistanceMap.__init__] and
      [_find_distances]; the offsets are tuples (a list is unhashable). *)
  Definition find_distances (dist : list F -> list F -> res F) (locs : list (list F)) : res (dict (list F) F) :=
    foldM (fun d loc => do x <- dist (zeros A (length loc)) loc; Ok (dset loc x d)) locs [].

  (** src/pylattica/core/distance_map.py:76-89 [get_dist] *)
  Definition get_dist (d : dict (list F) F) (loc : list F) : option F := dget loc d.
End Distances.

(** The rustworkx directed multigraph used at neighborhood_builders.py:38-53:
    nodes carry the site id (and node index = order of insertion), edges a
    weight.  Edges are listed newest first. *)
Record graph (F : Type) := mkGraph {
  g_nodes : list Z;
  g_edges : list (Z * Z * option F)
}.
Arguments mkGraph {F}. Arguments g_nodes {F}. Arguments g_edges {F}.

Section Graph.
  Context {F : Type}.

  Definition g_empty : graph F := mkGraph [] [].
  Definition g_add_node (g : graph F) (x : Z) : graph F := mkGraph (g_nodes g ++ [x]) (g_edges g).

  (** [PyDiGraph.add_edge(a, b, w)]: the ends are node indices; anything but an
      index is a TypeError, an absent index an IndexError. *)
  Definition g_add_edge (g : graph F) (a : Z) (b : option Z) (w : option F) : res (graph F) :=
    match b with
    | None => Err TypeError
    | Some b =>
        let n := Z.of_nat (length (g_nodes g)) in
        if (0 <=? a) && (a <? n) && (0 <=? b) && (b <? n)
        then Ok (mkGraph (g_nodes g) ((a, b, w) :: g_edges g))
        else Err IndexError
    end.

  Definition g_successors (g : graph F) (a : Z) : list Z :=
    map (fun e => snd (fst e)) (filter (fun e => fst (fst e) =? a) (g_edges g)).

  (** [PyDiGraph.neighbors(a)]: the distinct successors; their order is
      unspecified (a hash set), given by [ord]. *)
  Definition g_neighbors (ord : list Z -> list Z) (g : graph F) (a : Z) : list Z :=
    ord (dedup (g_successors g a)).

  (** [PyDiGraph.get_edge_data(a, b)]: the weight of the newest edge. *)
  Definition g_edge_data (g : graph F) (a b : Z) : res (option F) :=
    match find (fun e => (fst (fst e) =? a) && (snd (fst e) =? b)) (g_edges g) with
    | Some e => Ok (snd e)
    | None => Err NoEdgeBetweenNodes
    end.
End Graph.

(** Neighbourhood builders that implement [get_neighbors]
    (neighborhood_builders.py:93-251), and the two that override [get]
    (60-90, 254-288). *)
Inductive nb_builder (F : Type) : Type :=
| BDistance (cutoff : F)
| BAnnular (inner outer : F)
| BMotif (motif : list (list F)) (distances : dict (list F) F)
| BStochastic (builders : list (nb_builder F))
| BSiteClass (builders : dict string (nb_builder F)).
Arguments BDistance {F}. Arguments BAnnular {F}. Arguments BMotif {F}.
Arguments BStochastic {F}. Arguments BSiteClass {F}.

(** The neighbourhood objects of neighborhoods.py:17-86. *)
Inductive nbhood (F : Type) : Type :=
| NGraph (g : graph F)
| NStochastic (nbs : list (nbhood F))
| NSiteClass (s : structure F) (nbs : dict string (nbhood F)).
Arguments NGraph {F}. Arguments NStochastic {F}. Arguments NSiteClass {F}.

Section Builders.
  Context {F : Type} (A : arith F).

  (** src/pylattica/core/neighborhood_builders.py:216-227
      [MotifNeighborhoodBuilder.__init__]; offsets are tuples. *)
  Definition motif_builder (motif : list (list F)) : res (nb_builder F) :=
    do d <- find_distances A (euclidean_distance A) motif; Ok (BMotif motif d).

  (** src/pylattica/core/neighborhood_builders.py:108-136
      [DistanceNeighborhoodBuilder.get_neighbors] *)
  Definition distance_neighbors (cutoff : F) (s : structure F) (cur : site F) : res (list (option Z * option F)) :=
    foldM (fun nbs other =>
      if negb (s_id cur =? s_id other) then
        do dist <- cartesian_periodic_distance A (p_lattice s) (s_loc other) (s_loc cur);
        Ok (if a_ltb A dist cutoff then nbs ++ [(Some (s_id other), Some dist)] else nbs)
      else Ok nbs) (sites s None) [].

  (** src/pylattica/core/neighborhood_builders.py:158-184
      [AnnularNeighborhoodBuilder.get_neighbors] *)
  Definition annular_neighbors (inner outer : F) (s : structure F) (cur : site F) : res (list (option Z * option F)) :=
    foldM (fun nbs other =>
      if negb (s_id cur =? s_id other) then
        do dist <- pbc_diff_cart A (s_loc other) (s_loc cur) (p_lattice s);
        Ok (if a_ltb A inner dist && a_ltb A dist outer then nbs ++ [(Some (s_id other), Some dist)] else nbs)
      else Ok nbs) (sites s None) [].

  (** [nb_id != curr_site[SITE_ID]] where [nb_id] may be None *)
  Definition is_other (o : option Z) (i : Z) : bool :=
    match o with Some j => negb (j =? i) | None => true end.

  (** src/pylattica/core/neighborhood_builders.py:229-251
      [MotifNeighborhoodBuilder.get_neighbors] *)
  Definition motif_neighbors (motif : list (list F)) (d : dict (list F) F) (s : structure F) (cur : site F)
    : res (list (option Z * option F)) :=
    foldM (fun nbs vec =>
      do nb_id <- id_at A s (zipwith (a_add A) (s_loc cur) vec);
      Ok (if is_other nb_id (s_id cur) then nbs ++ [(nb_id, get_dist A d vec)] else nbs)) motif [].

  (** [get_neighbors] of the three concrete builders; the two others have none
      (the abstract method returns None, iterating over it is a TypeError). *)
  Definition get_neighbors (b : nb_builder F) (s : structure F) (cur : site F) : res (list (option Z * option F)) :=
    match b with
    | BDistance c => distance_neighbors c s cur
    | BAnnular i o => annular_neighbors i o s cur
    | BMotif m d => motif_neighbors m d s cur
    | _ => Err TypeError
    end.

  (** src/pylattica/core/neighborhood_builders.py:20-53
      [NeighborhoodBuilder.get] (the [tqdm] progress bar is dropped) *)
  Definition get_graph (b : nb_builder F) (s : structure F) (cls : option string) : res (graph F) :=
    let g := fold_left (fun g x => g_add_node g (s_id x)) (sites s None) g_empty in
    foldM (fun g cur =>
      do nbs <- get_neighbors b s cur;
      foldM (fun g nw => g_add_edge g (s_id cur) (fst nw) (snd nw)) nbs g) (sites s cls) g.

  (** [builder.get(struct)] / [builder.get(struct, site_class=c)]:
      neighborhood_builders.py:20-53, 75-90, 268-288.  The stochastic and
      class-based builders' [get] has no [site_class] parameter (TypeError). *)
  Fixpoint nb_get (b : nb_builder F) (s : structure F) (cls : option string) : res (nbhood F) :=
    match b with
    | BStochastic bs =>
        match cls with
        | Some _ => Err TypeError
        | None => do l <- (fix go (l : list (nb_builder F)) : res (list (nbhood F)) :=
                             match l with
                             | [] => Ok []
                             | b :: t => do x <- nb_get b s None; do xs <- go t; Ok (x :: xs)
                             end) bs;
                  Ok (NStochastic l)
        end
    | BSiteClass bs =>
        match cls with
        | Some _ => Err TypeError
        | None => do l <- (fix go (l : list (string * nb_builder F)) : res (list (string * nbhood F)) :=
                             match l with
                             | [] => Ok []
                             | (c, b) :: t => do x <- nb_get b s (Some c); do xs <- go t; Ok ((c, x) :: xs)
                             end) bs;
                  Ok (NSiteClass s l)
        end
    | _ => do g <- get_graph b s cls; Ok (NGraph g)
    end.

  (** The unspecified choices made inside one [neighbors_of] call: the order in
      which the graph lists its neighbours, and [random.choice]. *)
  Record nb_oracle := mkOracle {
    o_order : list Z -> list Z;
    o_choice : list (nbhood F) -> nat
  }.

  (** src/pylattica/core/neighborhoods.py:25-50 [Neighborhood.neighbors_of], 53-62
      [MultiNeighborhood.neighbors_of], 65-72 and 75-86 [_get_nbhood].
      [random.choice] of an empty list is an IndexError. *)
  Fixpoint neighbors_of (o : nb_oracle) (n : nbhood F) (i : Z) : res (list Z) :=
    match n with
    | NGraph g => Ok (g_neighbors (o_order o) g i)
    | NStochastic l =>
        (fix pick (l : list (nbhood F)) (k : nat) : res (list Z) :=
           match l, k with
           | [], _ => Err IndexError
           | n :: _, O => neighbors_of o n i
           | _ :: t, S k' => pick t k'
           end) l (o_choice o l)
    | NSiteClass s l =>
        do c <- site_class s i;
        (fix look (l : list (string * nbhood F)) : res (list Z) :=
           match l with
           | [] => Ok []
           | (c', n) :: t => if eqb c c' then neighbors_of o n i else look t
           end) l
    end.

  (** The same with [include_weights=True]: each neighbour with its weight
      (neighborhoods.py:43-48). *)
  Fixpoint weighted_neighbors_of (o : nb_oracle) (n : nbhood F) (i : Z) : res (list (Z * option F)) :=
    match n with
    | NGraph g => mapM (fun j => do w <- g_edge_data g i j; Ok (j, w)) (g_neighbors (o_order o) g i)
    | NStochastic l =>
        (fix pick (l : list (nbhood F)) (k : nat) : res (list (Z * option F)) :=
           match l, k with
           | [], _ => Err IndexError
           | n :: _, O => weighted_neighbors_of o n i
           | _ :: t, S k' => pick t k'
           end) l (o_choice o l)
    | NSiteClass s l =>
        do c <- site_class s i;
        (fix look (l : list (string * nbhood F)) : res (list (Z * option F)) :=
           match l with
           | [] => Ok []
           | (c', n) :: t => if eqb c c' then weighted_neighbors_of o n i else look t
           end) l
    end.
End Builders.
