(** T_testf.v -- claim C103: the tests of the field arithmetic and of the number theoretic transform pass, whatever they draw. *)
From Verif Require Import Base Spec M_ff M_ntt M_testf P_ff P_nttx P_testf.
Open Scope Z_scope.

(** C103: a round of the test ArithmeticOverZq passes for all field elements it may draw and every exponent *)
Theorem C103_field : forall a b exp, canon a -> canon b -> test_ff_round a b exp = Ok true.
Proof. exact ff_round_passes. Qed.
Print Assumptions C103_field.

(** C103: the test NumberTheoreticTransform passes at the first pass whose second polynomial is invertible, and goes on drawing until then *)
Theorem C103_transform : forall lg draws, falcon_lg lg ->
  (forall j, length (fst (draws j)) = (2 ^ lg)%nat /\ length (snd (draws j)) = (2 ^ lg)%nat /\ Forall canon (fst (draws j)) /\ Forall canon (snd (draws j))) ->
  forall fuel j, ((exists i, (j <= i < j + fuel)%nat /\ is_poly_invertible lg (snd (draws i)) = Ok true) -> test_ntt fuel lg draws j = Ok true) /\
    ((forall i, (j <= i < j + fuel)%nat -> is_poly_invertible lg (snd (draws i)) <> Ok true) -> test_ntt fuel lg draws j = Fuel).
Proof. exact ntt_test_passes. Qed.
Print Assumptions C103_transform.

(** draws in range; the first second polynomial is zero, the others are not *)
Example C103_sat : (canon 12288 /\ canon 0 /\ canon (ff_random (fun _ => 61445))) /\
  let draws := fun j : nat => (repeat 7 512, match j with O => repeat 0 512 | _ => 2 :: repeat 0 511 end) in
  (forall j, length (fst (draws j)) = (2 ^ 9)%nat /\ length (snd (draws j)) = (2 ^ 9)%nat /\ Forall canon (fst (draws j)) /\ Forall canon (snd (draws j))) /\
  is_poly_invertible 9 (snd (draws 0%nat)) <> Ok true /\ is_poly_invertible 9 (snd (draws 1%nat)) = Ok true.
Proof.
  split; [split; [split; reflexivity || discriminate|]; split; [split; reflexivity || discriminate|apply ff_random_canon; intros i; lia]|]. intros draws. split.
  - intros j. split; [reflexivity|]. split; [destruct j; reflexivity|]. split; [apply Forall_rep; split; reflexivity || discriminate|].
    destruct j; [apply Forall_rep; split; reflexivity || discriminate|constructor; [split; reflexivity || discriminate|apply Forall_rep; split; reflexivity || discriminate]].
  - destruct invertible_examples as [E1 E2]. split; [change (is_poly_invertible 9 (repeat 0 512) <> Ok true); rewrite E2; discriminate|exact E1].
Qed.
