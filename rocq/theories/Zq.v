(** Zq.v -- Z/12289 as a type with decidable canonical representatives (Leibniz equality). *)
From Verif Require Import Base Spec.
From Coq Require Import Ring_theory Ring Eqdep_dec.
Open Scope Z_scope.

Definition zq : Type := { z : Z | (z mod q =? z) = true }.

Lemma zq_ok x : ((x mod q) mod q =? x mod q) = true.
Proof. apply Z.eqb_eq. apply Z.mod_mod. discriminate. Qed.

Definition toq (x : Z) : zq := exist _ (x mod q) (zq_ok x).
Definition ofq (x : zq) : Z := proj1_sig x.

Lemma zq_ext (x y : zq) : ofq x = ofq y -> x = y.
Proof.
  destruct x as [x Hx], y as [y Hy]; simpl; intros ->. f_equal.
  apply UIP_dec. apply bool_dec.
Qed.

Lemma toq_ofq x : toq (ofq x) = x.
Proof. apply zq_ext. destruct x as [x Hx]; simpl. apply Z.eqb_eq; exact Hx. Qed.

Lemma ofq_toq x : ofq (toq x) = x mod q.
Proof. reflexivity. Qed.

Lemma ofq_canon x : canon (ofq x).
Proof. destruct x as [x Hx]; simpl. apply Z.eqb_eq in Hx. rewrite <- Hx. unfold canon, q. apply Z.mod_pos_bound. lia. Qed.

Lemma toq_eq x y : toq x = toq y <-> x mod q = y mod q.
Proof.
  split; intros H.
  - assert (H' := f_equal ofq H). exact H'.
  - apply zq_ext; exact H.
Qed.

Definition qadd (x y : zq) : zq := toq (ofq x + ofq y).
Definition qmul (x y : zq) : zq := toq (ofq x * ofq y).
Definition qsub (x y : zq) : zq := toq (ofq x - ofq y).
Definition qopp (x : zq) : zq := toq (- ofq x).
Definition q0 : zq := toq 0.
Definition q1 : zq := toq 1.

Lemma qnz : q <> 0. Proof. discriminate. Qed.

Lemma toq_add x y : toq (x + y) = qadd (toq x) (toq y).
Proof. apply toq_eq. rewrite !ofq_toq. apply Z.add_mod, qnz. Qed.
Lemma toq_mul x y : toq (x * y) = qmul (toq x) (toq y).
Proof. apply toq_eq. rewrite !ofq_toq. apply Z.mul_mod, qnz. Qed.
Lemma toq_sub x y : toq (x - y) = qsub (toq x) (toq y).
Proof. apply toq_eq. rewrite !ofq_toq. apply Zminus_mod. Qed.
Lemma toq_opp x : toq (- x) = qopp (toq x).
Proof.
  apply toq_eq. rewrite ofq_toq.
  replace (- x) with (0 - x) by lia. replace (- (x mod q)) with (0 - x mod q) by lia.
  rewrite Zminus_mod_idemp_r. reflexivity.
Qed.

Lemma zq_rep (P : zq -> Prop) : (forall z, P (toq z)) -> forall x, P x.
Proof. intros H x. rewrite <- (toq_ofq x). apply H. Qed.

Lemma zq_ring : ring_theory q0 q1 qadd qmul qsub qopp eq.
Proof.
  constructor.
  - intros x; pattern x; apply zq_rep; intros a. unfold q0. rewrite <- toq_add. f_equal.
  - intros x y; pattern x; apply zq_rep; intros a; pattern y; apply zq_rep; intros b.
    rewrite <- !toq_add. f_equal; lia.
  - intros x y z; pattern x; apply zq_rep; intros a; pattern y; apply zq_rep; intros b; pattern z; apply zq_rep; intros c.
    rewrite <- !toq_add. f_equal; lia.
  - intros x; pattern x; apply zq_rep; intros a. unfold q1. rewrite <- toq_mul. f_equal; lia.
  - intros x y; pattern x; apply zq_rep; intros a; pattern y; apply zq_rep; intros b.
    rewrite <- !toq_mul. f_equal; lia.
  - intros x y z; pattern x; apply zq_rep; intros a; pattern y; apply zq_rep; intros b; pattern z; apply zq_rep; intros c.
    rewrite <- !toq_mul. f_equal; lia.
  - intros x y z; pattern x; apply zq_rep; intros a; pattern y; apply zq_rep; intros b; pattern z; apply zq_rep; intros c.
    rewrite <- toq_add, <- !toq_mul, <- toq_add. f_equal; lia.
  - intros x y; pattern x; apply zq_rep; intros a; pattern y; apply zq_rep; intros b.
    rewrite <- toq_sub, <- toq_opp, <- toq_add. f_equal.
  - intros x; pattern x; apply zq_rep; intros a. rewrite <- toq_opp, <- toq_add. unfold q0. f_equal; lia.
Qed.
