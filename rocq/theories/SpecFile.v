(** Vocabulary for saving and loading (C92). *)
From Verif Require Import Prelude Dict Val StateModel ResultModel FileModel SpecState SpecResult.
Local Open Scope Z_scope.

(** A calendar time, up to the minute. *)
Definition calendar (t : clock) : Prop :=
  1000 <= c_year t /\ 1 <= c_month t <= 12 /\ 1 <= c_day t <= 31 /\ 0 <= c_hour t < 24 /\ 0 <= c_minute t < 60.

(** A series of calls of [to_file]: the paths returned and the files afterwards. *)
Fixpoint save_all (calls : list (sresult * option string * clock)) (fs : files) : list string * files :=
  match calls with
  | [] => ([], fs)
  | (r, p, t) :: rest =>
      let first := to_file r p t fs in
      let others := save_all rest (snd first) in
      (fst first :: fst others, snd others)
  end.

(** Results that survive being written as JSON (see C10). *)
Definition plain_result (r : sresult) : Prop :=
  json_state (r_init r) /\ Forall (fun v => exists d, v = VDict d /\ int_keyed d) (r_diffs r).

(** The result with an empty cache of steps. *)
Definition uncached (r : sresult) : sresult := mkR (r_init r) (r_diffs r) [].
