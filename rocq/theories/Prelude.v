(** Python-level basics used by every model file: exceptions as values,
    insertion-ordered dictionaries, and a few list helpers.  No repository
    code is modelled here; this file models CPython's behaviour. *)
From Coq Require Export String ZArith Bool Lia.
From Coq Require Export List ZifyBool ZifyNat.
Export ListNotations.
Open Scope Z_scope.

(** Exceptions that the modelled code can raise (only the class is kept; the
    message is dropped). *)
Inductive exn : Type :=
| TypeError | KeyError | ValueError | IndexError | ZeroDivisionError
| AssertionError | RuntimeError | AttributeError | LinAlgError
| FileNotFoundError | NoEdgeBetweenNodes | StopIteration.

(** Result of a Python computation: a value or a raised exception. *)
Inductive res (A : Type) : Type :=
| Ok (a : A)
| Err (e : exn).
Arguments Ok {A} _.
Arguments Err {A} _.

Definition bind {A B} (x : res A) (f : A -> res B) : res B :=
  match x with Ok a => f a | Err e => Err e end.

Notation "'do' x <- e1 ; e2" := (bind e1 (fun x => e2))
  (at level 200, x pattern, e1 at level 100, e2 at level 200, right associativity).

Definition is_ok {A} (x : res A) : Prop := exists a, x = Ok a.

(** A loop [for x in l: acc = f(acc, x)] whose body may raise. *)
Fixpoint foldM {A B} (f : A -> B -> res A) (l : list B) (a : A) : res A :=
  match l with
  | [] => Ok a
  | x :: t => do a' <- f a x; foldM f t a'
  end.

(** A list comprehension whose body may raise. *)
Fixpoint mapM {A B} (f : A -> res B) (l : list A) : res (list B) :=
  match l with
  | [] => Ok []
  | x :: t => do y <- f x; do ys <- mapM f t; Ok (y :: ys)
  end.

(** Decidable (Python [==]) comparison of dictionary keys. *)
Class Eqb (A : Type) := eqb : A -> A -> bool.
Class EqbOk (A : Type) {eqb_inst : Eqb A} := eqb_spec : forall x y : A, reflect (x = y) (eqb x y).

#[export] Instance Eqb_Z : Eqb Z := Z.eqb.
#[export] Instance Eqb_nat : Eqb nat := Nat.eqb.
#[export] Instance Eqb_string : Eqb string := String.eqb.
#[export] Instance Eqb_bool : Eqb bool := Bool.eqb.

Fixpoint list_eqb {A} `{Eqb A} (l1 l2 : list A) : bool :=
  match l1, l2 with
  | [], [] => true
  | x :: t1, y :: t2 => eqb x y && list_eqb t1 t2
  | _, _ => false
  end.
#[export] Instance Eqb_list {A} `{Eqb A} : Eqb (list A) := list_eqb.

(** Python dictionaries: insertion-ordered association lists.  All operations
    keep keys unique. *)
Notation dict K V := (list (K * V)) (only parsing).

Section Dict.
  Context {K V : Type} `{Eqb K}.

  (** [d.get(k)] *)
  Fixpoint dget (k : K) (d : dict K V) : option V :=
    match d with
    | [] => None
    | (k', v) :: t => if eqb k k' then Some v else dget k t
    end.

  (** [d[k] = v]: an existing key keeps its position, a new one goes last. *)
  Fixpoint dset (k : K) (v : V) (d : dict K V) : dict K V :=
    match d with
    | [] => [(k, v)]
    | (k', v') :: t => if eqb k k' then (k', v) :: t else (k', v') :: dset k v t
    end.

  (** [k in d] *)
  Definition dmem (k : K) (d : dict K V) : bool :=
    match dget k d with Some _ => true | None => false end.

  (** [d1.update(d2)] and [{**d1, **d2}] *)
  Definition dmerge (d1 d2 : dict K V) : dict K V :=
    fold_left (fun d kv => dset (fst kv) (snd kv) d) d2 d1.

  Definition dkeys (d : dict K V) : list K := map fst d.
  Definition dvals (d : dict K V) : list V := map snd d.

  (** [dict(pairs)] / a dict comprehension: later pairs override. *)
  Definition dict_of (l : list (K * V)) : dict K V := dmerge [] l.

  (** [d[k]] *)
  Definition dgetE (k : K) (d : dict K V) : res V :=
    match dget k d with Some v => Ok v | None => Err KeyError end.

  (** [del d[k]] (absent key: unchanged) *)
  Fixpoint ddel (k : K) (d : dict K V) : dict K V :=
    match d with
    | [] => []
    | (k', v') :: t => if eqb k k' then t else (k', v') :: ddel k t
    end.
End Dict.

(** [x in l] for lists. *)
Definition mem {A} `{Eqb A} (x : A) (l : list A) : bool := existsb (eqb x) l.

(** [list(dict.fromkeys(l))]: drop repeated elements, keep first occurrences. *)
Fixpoint dedup {A} `{Eqb A} (l : list A) : list A :=
  match l with
  | [] => []
  | x :: t => x :: filter (fun y => negb (eqb x y)) (dedup t)
  end.

(** Python's [range(n)] and [range(a, b)]. *)
Definition zrange (a b : Z) : list Z := map (fun i => a + Z.of_nat i) (seq 0 (Z.to_nat (b - a))).

(** [enumerate(l)], from index [i]. *)
Fixpoint enumerate_from {A} (i : Z) (l : list A) : list (Z * A) :=
  match l with [] => [] | x :: t => (i, x) :: enumerate_from (i + 1) t end.
Definition enumerate {A} (l : list A) : list (Z * A) := enumerate_from 0 l.

(** [l[i]] on a Python list: negative indices count from the end. *)
Definition list_getE {A} (l : list A) (i : Z) : res A :=
  let n := Z.of_nat (length l) in
  let j := if i <? 0 then i + n else i in
  if (j <? 0) || (j >=? n) then Err IndexError
  else match nth_error l (Z.to_nat j) with Some x => Ok x | None => Err IndexError end.
