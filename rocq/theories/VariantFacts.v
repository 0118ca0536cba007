(** What malformed variant strings of the Game of Life raise (C53). *)
From Coq Require Import Ascii String.
From Verif Require Import Prelude Dict Val Arith RunnerModel RulesModel SpecVariant.
Local Open Scope Z_scope.

Lemma digit_ok a : decimal a -> exists d, digit a = Ok d.
Proof.
  unfold decimal, digit. intros H. exists (Z.of_nat (nat_of_ascii a) - 48).
  replace (48 <=? Z.of_nat (nat_of_ascii a)) with true by (symmetry; apply Z.leb_le; lia).
  replace (Z.of_nat (nat_of_ascii a) <=? 57) with true by (symmetry; apply Z.leb_le; lia). reflexivity.
Qed.

Lemma digit_bad a : ~ decimal a -> digit a = Err ValueError.
Proof.
  unfold decimal, digit. intros H. destruct (Z.leb_spec 48 (Z.of_nat (nat_of_ascii a))); [|reflexivity].
  destruct (Z.leb_spec (Z.of_nat (nat_of_ascii a)) 57); [exfalso; apply H; lia|reflexivity].
Qed.

Lemma decimal_dec a : decimal a \/ ~ decimal a.
Proof. unfold decimal. lia. Qed.

Lemma digits_ok l : Forall decimal l -> exists ds, mapM digit l = Ok ds.
Proof.
  induction 1 as [|a l Ha _ [ds IH]]; [exists []; reflexivity|].
  destruct (digit_ok a Ha) as [d E]. exists (d :: ds). cbn [mapM]. rewrite E. cbn. rewrite IH. reflexivity.
Qed.

Lemma digits_bad l : ~ Forall decimal l -> mapM digit l = Err ValueError.
Proof.
  induction l as [|a l IH]; intros H; [exfalso; apply H; constructor|].
  cbn [mapM]. destruct (decimal_dec a) as [Ha|Ha].
  - destruct (digit_ok a Ha) as [d E]. rewrite E. cbn. rewrite IH; [reflexivity|]. intros K. apply H. constructor; assumption.
  - rewrite (digit_bad a Ha). reflexivity.
Qed.

Lemma tail_chars s : list_ascii_of_string (tail_of s) = tl (list_ascii_of_string s).
Proof. destruct s; reflexivity. Qed.

Lemma split_plain s : slashless s -> split_on "/" s = [s].
Proof.
  unfold slashless. induction s as [|a s IH]; intros H; [reflexivity|]. cbn [split_on].
  destruct (Ascii.eqb_spec a "/") as [->|N]; [exfalso; apply H; left; reflexivity|].
  rewrite IH; [reflexivity|]. intros K. apply H. right. exact K.
Qed.

Lemma split_slash a b : slashless a -> split_on "/" (a ++ "/" ++ b)%string = a :: split_on "/" b.
Proof.
  unfold slashless. induction a as [|c a IH]; intros H; [reflexivity|].
  change (String c a ++ "/" ++ b)%string with (String c (a ++ "/" ++ b)%string). cbn [split_on].
  destruct (Ascii.eqb_spec c "/") as [->|N]; [exfalso; apply H; left; reflexivity|].
  rewrite IH; [reflexivity|]. intros K. apply H. right. exact K.
Qed.

Lemma split_head b : exists h r, split_on "/" b = h :: r.
Proof.
  destruct b as [|c b]; [exists EmptyString, []; reflexivity|]. cbn [split_on].
  destruct (Ascii.eqb c "/"); [eauto|]. destruct (split_on "/" b); eauto.
Qed.

Lemma getE_two (a b : string) r : list_getE (a :: b :: r) 0 = Ok a /\ list_getE (a :: b :: r) 1 = Ok b.
Proof.
  unfold list_getE. change (0 <? 0) with false. change (1 <? 0) with false. cbv iota zeta. change (0 <? 0) with false. change (1 <? 0) with false.
  cbn [length]. split; rewrite Z.geb_leb; [replace (_ <=? 0) with false by (symmetry; apply Z.leb_gt; lia)|replace (_ <=? 1) with false by (symmetry; apply Z.leb_gt; lia)]; reflexivity.
Qed.

Lemma C53_malformed_lemma : forall a b c,
  slashless a -> slashless b ->
  (readable a -> process_variant_string a = Err IndexError) /\
  (~ readable a -> process_variant_string a = Err ValueError /\ forall r, process_variant_string (a ++ "/" ++ r) = Err ValueError) /\
  (~ readable b -> process_variant_string (a ++ "/" ++ b) = Err ValueError) /\
  process_variant_string (a ++ "/" ++ b ++ "/" ++ c) = process_variant_string (a ++ "/" ++ b).
Proof.
  intros a b c Ha Hb. unfold readable. repeat split.
  - intros R. unfold process_variant_string. rewrite (split_plain a Ha). cbn. rewrite tail_chars.
    destruct (digits_ok _ R) as [ds E]. rewrite E. reflexivity.
  - unfold process_variant_string. rewrite (split_plain a Ha). cbn. rewrite tail_chars, digits_bad by assumption. reflexivity.
  - intros r. unfold process_variant_string. rewrite (split_slash a r Ha). cbn. rewrite tail_chars, digits_bad by assumption. reflexivity.
  - intros R. unfold process_variant_string. rewrite (split_slash a b Ha), (split_plain b Hb). cbn. rewrite tail_chars.
    destruct (Forall_dec decimal ltac:(intros x; unfold decimal; destruct (le_dec 48 (nat_of_ascii x)), (le_dec (nat_of_ascii x) 57); [left; lia|right; lia..]) (tl (list_ascii_of_string a))) as [K|K].
    + destruct (digits_ok _ K) as [ds E]. rewrite E. rewrite <- (tail_chars b) in R. change (Pos.to_nat 1) with 1%nat. cbn. rewrite (digits_bad _ R). reflexivity.
    + rewrite (digits_bad _ K). reflexivity.
  - unfold process_variant_string. rewrite !(split_slash a _ Ha), (split_slash b c Hb), (split_plain b Hb).
    destruct (getE_two a b (split_on "/" c)) as [-> ->]. destruct (getE_two a b []) as [-> ->]. reflexivity.
Qed.
