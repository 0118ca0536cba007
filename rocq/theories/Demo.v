(** Small concrete objects used by the examples beside the theorems. *)
From Verif Require Import Prelude Val StateModel ResultModel RunnerModel SpecState SpecResult SpecRunner.

Definition demo_state : sstate :=
  mkS [(KInt 4, [(SITE_ID, VInt 4); (KStr "phase", VStr "A")]);
       (KInt 7, [(SITE_ID, VInt 7); (KStr "phase", VStr "B"); (KStr "n", VInt 3)])]
      [(KStr "time", VInt 0)].

Definition demo_history : list sop :=
  [OpSite (KInt 7) [(KStr "n", VInt 1)];
   OpBatchFull [(KInt 2, [(KStr "n", VInt 5)]); (KInt 7, [])] [(KStr "time", VInt 1)];
   OpGeneral [(KStr "time", VInt 2)];
   OpBatchSites [(KInt 2, [(KStr "n", VInt 6)])]].

Definition demo_update (z : Z) : val := VDict [(KInt z, VDict [(KStr "n", VInt z)])].
Definition demo_rops : list rop :=
  [RAdd (demo_update 4); RLoad 1; RGet 1; RAdd (demo_update 7); RLoad 2; RAdd (VDict [(GENERAL, VDict [(KStr "time", VInt 1)])])].

(** A stateful controller for asynchronous runs: the hidden counter picks the site; every
    answer increments a value and asks to visit the other site next, every third one
    asks for nothing. *)
Definition bump (c : Z) (s : sstate) (id : key) : val :=
  let n := match site_entry s id (KStr "n") with Some (VInt z) => z | _ => 0 end in
  VDict [(KStr "n", VInt (n + 1))].
Definition demo_controller : controller Z :=
  mkController (fun c _ => Ok (c + 1))
    (fun c s => Ok (VList (map key_val (site_ids s)), c))
    (fun c id s => Ok (if c mod 3 =? 0 then bump c s id else VTuple [bump c s id; VList [VInt 7]], c + 1)).

(** A pure own-site rule: copy of a neighbour's value, None at site 4. *)
Definition demo_rule (id : key) (s : sstate) : res val :=
  if eqb id (KInt 4) then Ok VNone
  else Ok (VDict [(KStr "n", VInt (size s))]).

Lemma demo_json : json_state demo_state.
Proof.
  split; [repeat constructor; cbn; intuition discriminate|]. split.
  - constructor; [|constructor; [|constructor]]; cbn [fst snd].
    + split; [now exists 4|]. cbn. split; [repeat constructor; cbn; intuition discriminate|].
      repeat split; eexists; reflexivity.
    + split; [now exists 7|]. cbn. split; [repeat constructor; cbn; intuition discriminate|].
      repeat split; eexists; reflexivity.
  - cbn. split; [repeat constructor; cbn; tauto|]. repeat split; eexists; reflexivity.
Qed.
