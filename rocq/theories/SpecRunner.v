(** Vocabulary for the runners: what a controller's answer stands for, independent of
    how the runners merge answers. *)
From Verif Require Import Prelude Val StateModel ResultModel RunnerModel SpecState SpecResult.

(** Keys with a special meaning in an answer. *)
Definition no_reserved (u : pdict) : Prop := dget SITES u = None /\ dget GENERAL u = None.

(** Does the dictionary look like a map from site ids (non-empty, integer keys only)? *)
Definition site_map (u : pdict) : Prop := u <> [] /\ forall k, In k (dkeys u) -> exists z, k = KInt z.

(** [means id v S G]: answer [v] of the rule applied at site [id] stands for the site
    updates [S] and the general update [G].  (Docs: runner guide, "update formats".) *)
Inductive means (id : key) : val -> pdict -> pdict -> Prop :=
| means_none : means id VNone [] []
| means_site u : no_reserved u -> ~ site_map u -> means id (VDict u) [(id, VDict u)] []
| means_sites u : no_reserved u -> site_map u -> means id (VDict u) u []
| means_full b S G :
    (dget SITES b = Some (VDict S) \/ dget SITES b = None /\ S = []) ->
    (dget GENERAL b = Some (VDict G) \/ dget GENERAL b = None /\ G = []) ->
    ~ no_reserved b -> means id (VDict b) S G.

(** The normal form of an update. *)
Definition full_update (S G : pdict) : val := VDict [(SITES, VDict S); (GENERAL, VDict G)].

(** [own_answer id v u]: answer [v] at site [id] asks for update [u] of that very site
    and nothing else. *)
Definition own_answer (id : key) (v : val) (u : pdict) : Prop :=
  (v = VNone /\ u = []) \/ (v <> VNone /\ means id v [(id, VDict u)] []).

(** A rule that only updates the site it is applied to. *)
Definition own_rule {C} (ctl : controller C) : Prop :=
  forall c id s v c', c_update ctl c id s = Ok (v, c') -> exists u, own_answer id v u /\ uniq u.

(** [s'] is [s] after applying site updates [S] and general update [G]: exactly the named
    entries change. *)
Definition updated (s : sstate) (S G : pdict) (s' : sstate) : Prop :=
  (forall i k, site_entry s' i k =
     match dget i S with
     | Some (VDict u) => upd_entry u k (entry_or_new s i k)
     | _ => site_entry s i k
     end) /\
  (forall i, ~ In i (dkeys S) -> get_site_state s' i = get_site_state s i) /\
  (forall k, general_entry s' k = upd_entry G k (general_entry s k)).

(** Well-formed update data (dictionaries have unique keys). *)
Definition upd_wf (S G : pdict) : Prop :=
  uniq S /\ uniq G /\ forall i v, In (i, v) S -> exists u, v = VDict u /\ uniq u.

(** A rule's answer in an asynchronous run: (update, next sites), or just the update. *)
Definition answer_of (resp ups nx : val) : Prop :=
  resp = VTuple [ups; nx] \/ (resp = ups /\ nx = VList [] /\ forall l, resp <> VTuple l).

(** Controllers answer with proper dictionaries. *)
Definition proper {C} (ctl : controller C) : Prop :=
  forall c id s v c' ups nx S G,
    c_update ctl c id s = Ok (v, c') -> answer_of v ups nx ->
    means id ups S G -> uniq S /\ uniq G /\ (forall i w, In (i, w) S -> forall u, w = VDict u -> uniq u).

(** Pure rules that only update their own site. *)
Definition own_fun (f : key -> sstate -> res val) : Prop :=
  forall id s v, f id s = Ok v -> exists u, own_answer id v u /\ uniq u.

(** Pure own-site rules that always assign the same keys of the site. *)
Definition stable_fun (f : key -> sstate -> res val) : Prop :=
  forall id, exists ks, forall s v, f id s = Ok v ->
    exists u, v <> VNone /\ means id v [(id, VDict u)] [] /\ uniq u /\ dkeys u = ks.

(** [nb] tasks per step; [sched t b] is the worker running task [b] of step [t].
    Every worker used in some step was used in every earlier step. *)
Definition keeps_up (nb : nat) (sched : nat -> nat -> nat) : Prop :=
  forall t b, (b < nb)%nat -> forall t', (t' < t)%nat -> exists b', (b' < nb)%nat /\ sched t' b' = sched t b.

(** [names v k]: the Python value [v], used as a site id, is the key [k]. *)
Definition names (v : val) (k : key) : Prop :=
  v = key_val k \/ exists b : bool, v = VBool b /\ k = KInt (if b then 1 else 0).

(** The sites listed by the second part of an answer. *)
Definition requests (nx : val) (ks : list key) : Prop :=
  (exists l, (nx = VList l \/ nx = VTuple l) /\ Forall2 names l ks) \/ (exists d, nx = VDict d /\ ks = dkeys d).

(** The sites offered by an answer of get_random_site: one id, a list of ids, or nothing. *)
Inductive offers : val -> list key -> Prop :=
| offers_int z : offers (VInt z) [KInt z]
| offers_bool (b : bool) : offers (VBool b) [KInt (if b then 1 else 0)]
| offers_list l ks : Forall2 names l ks -> offers (VList l) ks
| offers_none v : (forall z, v <> VInt z) -> (forall b, v <> VBool b) -> (forall l, v <> VList l) -> offers v [].

(** Two states with the same contents, possibly stored in another order. *)
Definition same_content (s1 s2 : sstate) : Prop :=
  (forall i, get_site_state s1 i = get_site_state s2 i) /\ get_general_state s1 = get_general_state s2.

(** A rule that looks at contents only. *)
Definition order_blind (f : key -> sstate -> res val) : Prop :=
  forall id s1 s2, same_content s1 s2 -> f id s1 = f id s2.

(** Last update to [i] in a list of site maps. *)
Definition last_for {V} (i : key) (Ss : list (dict key V)) : option V :=
  fold_left (fun acc S => match dget i S with Some v => Some v | None => acc end) Ss None.

(** Two states show the same entries at a site. *)
Definition agree_at (s1 s2 : sstate) (i : key) : Prop := forall k, site_entry s1 i k = site_entry s2 i k.

(** A rule that looks at its own site, at the neighbours [nbr] and at the general state only. *)
Definition local_fun (nbr : key -> key -> Prop) (f : key -> sstate -> res val) : Prop :=
  forall id s1 s2, get_general_state s1 = get_general_state s2 -> agree_at s1 s2 id ->
    (forall j, nbr id j -> agree_at s1 s2 j) -> f id s1 = f id s2.

(** [j] is at most [t] hops from [i]. *)
Inductive hops (nbr : key -> key -> Prop) : nat -> key -> key -> Prop :=
| hops_here t i : hops nbr t i i
| hops_on t i m j : nbr i m -> hops nbr t m j -> hops nbr (S t) i j.
