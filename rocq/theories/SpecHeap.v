(** Vocabulary for statements about aliasing: what can be observed from a value, which
    objects a client can reach and edit, and which plain value an object stands for. *)
From Verif Require Import Prelude Val StateModel ResultModel RunnerModel HeapModel.

(** The values an object holds. *)
Definition children (o : hobj) : list hval :=
  match o with
  | ODict d => map snd d
  | OList l | OTuple l => l
  | OState v => [v]
  end.

(** No dangling reference. *)
Definition heap_ok (h : heap) : Prop :=
  forall l o r, nth_error h l = Some o -> In (HRef r) (children o) -> (r < length h)%nat.

(** [reach h l x]: object [x] can be got from object [l] by look-ups. *)
Inductive reach (h : heap) : nat -> nat -> Prop :=
| reach_here l : reach h l l
| reach_next l o m x : nth_error h l = Some o -> In (HRef m) (children o) -> reach h m x -> reach h l x.

Definition reachable (h : heap) (roots : list nat) (x : nat) : Prop :=
  exists r, In r roots /\ reach h r x.

(** Everything a client holding the objects [roots] can do: keep hold of an object it can
    reach, make new objects out of what it can reach, and overwrite in place any object it
    can reach. *)
Inductive edits : list nat -> heap -> list nat -> heap -> Prop :=
| edits_none R h : edits R h R h
| edits_hold R h m R' h' : reachable h R m -> edits (m :: R) h R' h' -> edits R h R' h'
| edits_new R h o R' h' :
    (forall m, In (HRef m) (children o) -> reachable h R m) ->
    edits (length h :: R) (h ++ [o]) R' h' -> edits R h R' h'
| edits_write R h l o R' h' :
    reachable h R l -> (forall m, In (HRef m) (children o) -> reachable h R m) ->
    edits R (put h l o) R' h' -> edits R h R' h'.

(** What a look-up shows: a scalar, or the kind of object with its keys or length. *)
Inductive shape : Type :=
| ShNone | ShBool (b : bool) | ShInt (z : Z) | ShFloat (m e : Z) | ShStr (s : string)
| ShDict (keys : list key) | ShList (n : nat) | ShTuple (n : nat) | ShState.

(** One look-up: [x[k]] in a dictionary, [x[i]] in a list or tuple, [x._state]. *)
Inductive look : Type := LKey (k : key) | LIndex (i : nat) | LState.

Definition look_in (o : hobj) (k : look) : option hval :=
  match o, k with
  | ODict d, LKey k => dget k d
  | OList l, LIndex i | OTuple l, LIndex i => nth_error l i
  | OState v, LState => Some v
  | _, _ => None
  end.

Definition shape_of (o : hobj) : shape :=
  match o with
  | ODict d => ShDict (map fst d)
  | OList l => ShList (length l)
  | OTuple l => ShTuple (length l)
  | OState _ => ShState
  end.

(** What is seen from value [v] after a chain of look-ups. *)
Fixpoint observe (h : heap) (v : hval) (path : list look) : option shape :=
  match path with
  | [] =>
      match v with
      | HNone => Some ShNone | HBool b => Some (ShBool b) | HInt z => Some (ShInt z)
      | HFloat m e => Some (ShFloat m e) | HStr s => Some (ShStr s)
      | HRef l => option_map shape_of (nth_error h l)
      end
  | k :: rest =>
      match v with
      | HRef l =>
          match nth_error h l with
          | Some o => match look_in o k with Some w => observe h w rest | None => None end
          | None => None
          end
      | _ => None
      end
  end.

(** [rep bad h v x]: in heap [h] the value [v] is the plain (tree-like) value [x], and no
    object of it satisfies [bad]. *)
Fixpoint rep (bad : nat -> Prop) (h : heap) (v : hval) (x : val) {struct x} : Prop :=
  match x with
  | VNone => v = HNone
  | VBool b => v = HBool b
  | VInt z => v = HInt z
  | VFloat m e => v = HFloat m e
  | VStr s => v = HStr s
  | VList l =>
      exists n vs, v = HRef n /\ ~ bad n /\ nth_error h n = Some (OList vs) /\
        (fix go (vs : list hval) (l : list val) {struct l} : Prop :=
           match vs, l with
           | [], [] => True
           | w :: vs', y :: l' => rep bad h w y /\ go vs' l'
           | _, _ => False
           end) vs l
  | VTuple l =>
      exists n vs, v = HRef n /\ ~ bad n /\ nth_error h n = Some (OTuple vs) /\
        (fix go (vs : list hval) (l : list val) {struct l} : Prop :=
           match vs, l with
           | [], [] => True
           | w :: vs', y :: l' => rep bad h w y /\ go vs' l'
           | _, _ => False
           end) vs l
  | VDict d =>
      exists n hd, v = HRef n /\ ~ bad n /\ nth_error h n = Some (ODict hd) /\
        (fix go (hd : dict key hval) (d : list (key * val)) {struct d} : Prop :=
           match hd, d with
           | [], [] => True
           | (k, w) :: hd', (k', y) :: d' => k = k' /\ rep bad h w y /\ go hd' d'
           | _, _ => False
           end) hd d
  end.

(** The same entry by entry for the contents of a dictionary. *)
Definition rep_entries (bad : nat -> Prop) (h : heap) (hd : dict key hval) (d : pdict) : Prop :=
  Forall2 (fun p q => fst p = fst q /\ rep bad h (snd p) (snd q)) hd d.

(** The object [s] is a SimulationState whose contents are the plain state [st].  Its two
    mutable dictionaries [top] (the attribute [_state]) and [sites] (its entry SITES) occur
    nowhere inside the site states or the general state. *)
Definition rep_state (h : heap) (s : nat) (st : sstate) : Prop :=
  exists top sites d sd g,
    nth_error h s = Some (OState (HRef top)) /\ top <> sites /\
    nth_error h top = Some (ODict d) /\
    dget SITES d = Some (HRef sites) /\ nth_error h sites = Some (ODict sd) /\
    dget GENERAL d = Some g /\
    rep_entries (fun l => l = top \/ l = sites) h sd
                (map (fun kv => (fst kv, VDict (snd kv))) (s_sites st)) /\
    rep (fun l => l = top \/ l = sites) h g (VDict (s_general st)).

(** The two dictionaries a state modifies in place. *)
Definition own_dict (h : heap) (s l : nat) : Prop :=
  exists top d, nth_error h s = Some (OState (HRef top)) /\ nth_error h top = Some (ODict d) /\
                (l = top \/ dget SITES d = Some (HRef l)).

(** The result [r] stands for the plain result [R]. *)
Definition rep_result (h : heap) (r : hresult) (R : sresult) : Prop :=
  rep_state h (hr_init r) (r_init R) /\
  Forall2 (rep (fun _ => False) h) (hr_diffs r) (r_diffs R) /\
  Forall2 (fun p q => fst p = fst q /\ rep_state h (snd p) (snd q)) (hr_stored r) (r_stored R).

(** The objects a result holds: its initial state, its updates and its cached states. *)
Definition refs_of (vs : list hval) : list nat :=
  flat_map (fun v => match v with HRef l => [l] | _ => [] end) vs.
Definition roots_of (r : hresult) : list nat :=
  hr_init r :: refs_of (hr_diffs r) ++ map snd (hr_stored r).

(** Plain values without mutable parts, and updates whose entries are such. *)
Definition scalar (x : val) : Prop :=
  match x with VList _ | VTuple _ | VDict _ => False | _ => True end.
Definition scalars (x : val) : Prop :=
  match x with VDict d => Forall (fun kv => scalar (snd kv)) d | _ => True end.
Definition flat (x : val) : Prop :=
  match x with
  | VDict b =>
      Forall (fun kv => scalars (snd kv)) b \/
      (exists g, dget GENERAL b = Some g /\ scalars g /\
         match dget SITES b with
         | Some (VDict d) => Forall (fun kv => scalars (snd kv)) d
         | _ => True
         end)
  | _ => True
  end.

(** A controller that only allocates: it edits no object that exists. *)
Definition extends (h h' : heap) : Prop := exists t, h' = h ++ t.
Definition hands_off {C} (ctl : hcontroller C) : Prop :=
  (forall c s h c' h', hc_pre_run ctl c s h = Ok (c', h') -> extends h h') /\
  (forall c s h v c' h', hc_random_site ctl c s h = Ok (v, c', h') -> extends h h') /\
  (forall c k s h v c' h', hc_update ctl c k s h = Ok (v, c', h') -> extends h h').

(** What a controller keeping the objects [K] can hand out when it is called with the state
    [s] in heap [h] and leaves heap [h']: what it keeps, what it has just made, and what it
    can look up in the state, except the two dictionaries the state modifies in place. *)
Definition can_give (K : nat -> Prop) (h h' : heap) (s l : nat) : Prop :=
  K l \/ (length h <= l < length h')%nat \/ (reach h s l /\ ~ own_dict h s l).

(** [mimics K I ctl pc]: on objects, the controller [ctl] answers what the controller [pc]
    answers on plain values.  It only makes new objects; [K c] are the objects it keeps
    and [I c h] says that they still are what they should be. *)
Definition mimics {C} (K : C -> nat -> Prop) (I : C -> heap -> Prop) (ctl : hcontroller C) (pc : controller C) : Prop :=
  (forall c h l, I c h -> K c l -> (l < length h)%nat) /\
  (forall c h h', I c h -> (length h <= length h')%nat -> (forall l, K c l -> nth_error h' l = nth_error h l) -> I c h') /\
  forall c s st h, heap_ok h -> rep_state h s st -> I c h -> (forall l, K c l -> ~ own_dict h s l) ->
    match c_pre_run pc c st with
    | Ok c' => exists h', hc_pre_run ctl c s h = Ok (c', h') /\ extends h h' /\ heap_ok h' /\
                 I c' h' /\ (forall l, K c' l -> can_give (K c) h h' s l)
    | Err e => hc_pre_run ctl c s h = Err e
    end /\
    match c_random_site pc c st with
    | Ok (x, c') => exists v h', hc_random_site ctl c s h = Ok (v, c', h') /\ extends h h' /\ heap_ok h' /\
                 I c' h' /\ (forall l, K c' l -> can_give (K c) h h' s l) /\
                 rep (fun l => ~ can_give (K c) h h' s l) h' v x
    | Err e => hc_random_site ctl c s h = Err e
    end /\
    forall k,
    match c_update pc c k st with
    | Ok (x, c') => exists v h', hc_update ctl c k s h = Ok (v, c', h') /\ extends h h' /\ heap_ok h' /\
                 I c' h' /\ (forall l, K c' l -> can_give (K c) h h' s l) /\
                 rep (fun l => ~ can_give (K c) h h' s l) h' v x
    | Err e => hc_update ctl c k s h = Err e
    end.
