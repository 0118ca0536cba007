(** Property C139: how runs of life-like variants compare. *)
From Coq Require Import Reals Permutation.
From Verif Require Import Prelude Dict Val Arith RealArith LatticeModel StructModel StateModel ResultModel RunnerModel NbModel GridModel RulesModel SpecState SpecGeom SpecNb SpecGrid SpecSetup SpecRules SpecLife SpecRival GridMore LifePlane GridFacts GridNb LifeRival.
Local Open Scope Z_scope.

(** C139. Variants with the same counts, however they are spelt. *)
Theorem C139_same : forall size s variant variant' born survive born' survive' init init' g n o o',
  board size s init g -> board size s init' g ->
  process_variant_string variant = Ok (born, survive) -> process_variant_string variant' = Ok (born', survive') ->
  (forall k, 0 <= k <= 8 -> (In k born <-> In k born') /\ (In k survive <-> In k survive')) ->
  played s variant init n o -> played s variant' init' n o' ->
  forall t st st' i x p, 0 <= t <= n -> get_step (o_result o) t = Ok st -> get_step (o_result o') t = Ok st' -> get_site s i = Some x ->
    (holds st i p <-> holds st' i p).
Proof. exact C139_same_lemma. Qed.
Print Assumptions C139_same.
Example C139_same_example : process_variant_string "B3/S23" = Ok ([3], [2; 3]) /\ process_variant_string "B33/S322" = Ok ([3; 3], [3; 2; 2]) /\
  (forall k, 0 <= k <= 8 -> (In k [3] <-> In k [3; 3]) /\ (In k [2; 3] <-> In k [3; 2; 2])) /\
  exists s init, board [7; 9] s init (tile 9 7 glider).
Proof.
  split; [reflexivity|]. split; [reflexivity|]. split; [intros k _; cbn [In]; split; split; lia|].
  destruct (C67_exists_lemma [7; 9]) as [s SG]; [repeat constructor; lia|auto|]. destruct (picture_draws 7 9 s glider SG) as [P D].
  exists s. eexists. split; [exact SG|]. split; [reflexivity|]. split; [repeat constructor; lia|]. split; [exact P|]. apply (draws_shows 7 9 s _ _ SG). exact D.
Qed.

(** C139. Exchanging the living and the dead, in the state and in the variant. *)
Theorem C139_exchange : forall size s variant variant' born survive born' survive' init init' g n o o',
  board size s init g -> board size s init' (fun x y => negb (g x y)) ->
  process_variant_string variant = Ok (born, survive) -> process_variant_string variant' = Ok (born', survive') ->
  (forall k, 0 <= k <= 8 -> (In k born' <-> ~ In (8 - k) survive) /\ (In k survive' <-> ~ In (8 - k) born)) ->
  played s variant init n o -> played s variant' init' n o' ->
  forall t st st' i x, 0 <= t <= n -> get_step (o_result o) t = Ok st -> get_step (o_result o') t = Ok st' -> get_site s i = Some x ->
    (holds st i "alive" <-> holds st' i "dead") /\ (holds st i "dead" <-> holds st' i "alive").
Proof. exact C139_exchange_lemma. Qed.
Print Assumptions C139_exchange.
Example C139_exchange_example : process_variant_string "B3/S23" = Ok ([3], [2; 3]) /\ process_variant_string "B0123478/S01234678" = Ok ([0; 1; 2; 3; 4; 7; 8], [0; 1; 2; 3; 4; 6; 7; 8]) /\
  (forall k, 0 <= k <= 8 -> (In k [0; 1; 2; 3; 4; 7; 8] <-> ~ In (8 - k) [2; 3]) /\ (In k [0; 1; 2; 3; 4; 6; 7; 8] <-> ~ In (8 - k) [3])) /\
  exists s init init', board [3; 3] s init (tile 3 3 [(0, 0)]) /\ board [3; 3] s init' (fun x y => negb (tile 3 3 [(0, 0)] x y)).
Proof.
  split; [reflexivity|]. split; [reflexivity|]. split; [intros k Hk; cbn [In]; split; split; lia|].
  destruct (C67_exists_lemma [3; 3]) as [s SG]; [repeat constructor; lia|auto|]. destruct (picture_draws 3 3 s [(0, 0)] SG) as [P D].
  destruct (picture_draws 3 3 s [(0, 1); (0, 2); (1, 0); (1, 1); (1, 2); (2, 0); (2, 1); (2, 2)] SG) as [P' D'].
  exists s. do 2 eexists. split; (split; [exact SG|]; split; [reflexivity|]; split; [repeat constructor; lia|]).
  - split; [exact P|]. apply (draws_shows 3 3 s _ _ SG). exact D.
  - split; [exact P'|]. apply (draws_shows 3 3 s _ _ SG) in D'. intros x y i C. specialize (D' x y i C). revert D'. unfold tile. cbn [existsb fst snd]. rewrite !(Zminus_mod x), !(Zminus_mod y).
    assert (X : x mod 3 = 0 \/ x mod 3 = 1 \/ x mod 3 = 2) by (pose proof (Z.mod_pos_bound x 3 ltac:(lia)); lia).
    assert (Y : y mod 3 = 0 \/ y mod 3 = 1 \/ y mod 3 = 2) by (pose proof (Z.mod_pos_bound y 3 ltac:(lia)); lia).
    destruct X as [->|[->| ->]], Y as [->|[->| ->]]; exact (fun H => H).
Qed.

(** C139. Patterns that contain others keep containing them if more living neighbours never harm. *)
Theorem C139_order : forall size s variant variant' born survive born' survive' init init' g h n o o',
  board size s init g -> board size s init' h -> (forall x y, g x y = true -> h x y = true) ->
  process_variant_string variant = Ok (born, survive) -> process_variant_string variant' = Ok (born', survive') ->
  (forall j k, 0 <= j <= k -> k <= 8 -> (In j born -> In k born' /\ In k survive') /\ (In j survive -> In k survive')) ->
  played s variant init n o -> played s variant' init' n o' ->
  forall t st st' i x, 0 <= t <= n -> get_step (o_result o) t = Ok st -> get_step (o_result o') t = Ok st' -> get_site s i = Some x ->
    holds st i "alive" -> holds st' i "alive".
Proof. exact C139_order_lemma. Qed.
Print Assumptions C139_order.
Example C139_order_example : process_variant_string "B45678/S345678" = Ok ([4; 5; 6; 7; 8], [3; 4; 5; 6; 7; 8]) /\
  (forall j k, 0 <= j <= k -> k <= 8 -> (In j [4; 5; 6; 7; 8] -> In k [4; 5; 6; 7; 8] /\ In k [3; 4; 5; 6; 7; 8]) /\ (In j [3; 4; 5; 6; 7; 8] -> In k [3; 4; 5; 6; 7; 8])) /\
  let small := fun x y : Z => (0 <=? x) && (x <=? 1) && (0 <=? y) && (y <=? 1) in let large := fun x y : Z => (0 <=? x) && (x <=? 2) && (0 <=? y) && (y <=? 1) in
  (forall x y, small x y = true -> large x y = true) /\ life_after [4; 5; 6; 7; 8] [3; 4; 5; 6; 7; 8] 3 small 1 1 = true /\ life_after [3] [2; 3] 1 large 1 1 = false.
Proof.
  split; [reflexivity|]. split; [intros j k; cbn [In]; lia|]. cbv zeta. split; [|split; reflexivity].
  intros x y. rewrite !andb_true_iff, !Z.leb_le. lia.
Qed.

(** C139. Variants in which one kind of cell always or never changes. *)
Theorem C139_lasting : forall size s variant born survive init g n o,
  board size s init g -> process_variant_string variant = Ok (born, survive) -> played s variant init n o ->
  forall t st st' i x, 0 <= t < n -> get_step (o_result o) t = Ok st -> get_step (o_result o) (t + 1) = Ok st' -> get_site s i = Some x ->
    ((forall k, 0 <= k <= 8 -> In k survive) -> holds st i "alive" -> holds st' i "alive") /\
    ((forall k, 0 <= k <= 8 -> ~ In k survive) -> holds st i "alive" -> holds st' i "dead") /\
    ((forall k, 0 <= k <= 8 -> ~ In k born) -> holds st i "dead" -> holds st' i "dead") /\
    ((forall k, 0 <= k <= 8 -> In k born) -> holds st i "dead" -> holds st' i "alive").
Proof. exact C139_lasting_lemma. Qed.
Print Assumptions C139_lasting.
Example C139_lasting_example : process_variant_string "B3/S012345678" = Ok ([3], [0; 1; 2; 3; 4; 5; 6; 7; 8]) /\ (forall k, 0 <= k <= 8 -> In k [0; 1; 2; 3; 4; 5; 6; 7; 8]) /\
  process_variant_string "B2/S" = Ok ([2], []) /\ (forall k, 0 <= k <= 8 -> ~ In k []).
Proof. split; [reflexivity|]. split; [intros k Hk; cbn [In]; lia|]. split; [reflexivity|]. intros k _ []. Qed.
