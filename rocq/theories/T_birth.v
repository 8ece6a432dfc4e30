(** T_birth.v -- claim C98: how soon the salts of sign repeat. *)
From Coq Require Import Reals.
From Verif Require Import Base Spec SpecR M_codec M_sig M_verify M_samp M_float M_exact M_fft M_ntru M_tree M_util P_birth.
Open Scope R_scope.

(** C98: r calls of sign, each with its own generator, whatever the keys, messages, engine, distribution, hash function and floating point arithmetic.  Of the (2^32)^r sequences of values of the
    random device at most the share exp (- r (r - 1) / 2^33) lets all calls succeed with r different salts. *)
Theorem C98_salts_repeat : forall draw xof F (zt : list (D F * D F)) fuel sfuel lg, falcon_lg lg -> forall r (skeys msgs sigs : nat -> list Z), (forall i, (sig_bytes lg <= length (sigs i))%nat) ->
  forall L, NoDup L ->
    Forall (fun rds => length rds = r /\ Forall (fun rd => 0 <= rd < 2 ^ 32)%Z rds /\ exists outs, length outs = r /\
      (forall i, (i < r)%nat -> sign_run draw xof F zt fuel sfuel lg (skeys i) (msgs i) (sigs i) (nth i rds 0%Z) = Ok (true, nth i outs [])) /\ NoDup (map (fun sig => firstn 40 (skipn 1 sig)) outs)) L ->
  INR (length L) <= exp (- (INR r * (INR r - 1) / 2 ^ 33)) * (2 ^ 32) ^ r.
Proof. exact birthday. Qed.
Print Assumptions C98_salts_repeat.
(** from 100000 calls on, at most one sequence in three *)
Theorem C98_one_in_three : forall draw xof F (zt : list (D F * D F)) fuel sfuel lg, falcon_lg lg -> forall r (skeys msgs sigs : nat -> list Z), (forall i, (sig_bytes lg <= length (sigs i))%nat) -> 100000 <= INR r ->
  forall L, NoDup L ->
    Forall (fun rds => length rds = r /\ Forall (fun rd => 0 <= rd < 2 ^ 32)%Z rds /\ exists outs, length outs = r /\
      (forall i, (i < r)%nat -> sign_run draw xof F zt fuel sfuel lg (skeys i) (msgs i) (sigs i) (nth i rds 0%Z) = Ok (true, nth i outs [])) /\ NoDup (map (fun sig => firstn 40 (skipn 1 sig)) outs)) L ->
  INR (length L) <= 1 / 3 * (2 ^ 32) ^ r.
Proof. exact birthday_third. Qed.
Print Assumptions C98_one_in_three.

(** the same for keygen: at most this share of the sequences gives r different outcomes, that is, r different key pairs *)
Theorem C98_keys_repeat : forall draw xof F (zt : list (D F * D F)) fuel sfuel lg pk0 sk0 r L, NoDup L ->
  Forall (fun rds => length rds = r /\ Forall (fun rd => 0 <= rd < 2 ^ 32)%Z rds /\ NoDup (map (keygen_run draw xof F zt fuel sfuel lg pk0 sk0) rds)) L ->
  INR (length L) <= exp (- (INR r * (INR r - 1) / 2 ^ 33)) * (2 ^ 32) ^ r.
Proof. exact birthday_keys. Qed.
Print Assumptions C98_keys_repeat.

(** a call that succeeds, with the value 5 of the random device *)
Example C98_sat : exists skey draw xof fuel sfuel out, (forall a, byte_stream (xof a)) /\ (sig_bytes 9 <= length (repeat 0%Z 668))%nat /\
  sign_run draw xof RF exact_table fuel sfuel 9 skey [1; 2; 3]%Z (repeat 0%Z 668) 5 = Ok (true, out) /\ NoDup (map (fun sig : list Z => firstn 40 (skipn 1 sig)) [out]).
Proof. exact birthday_example. Qed.
Example C98_keys_sat : forall draw xof F (zt : list (D F * D F)) fuel sfuel lg pk0 sk0, NoDup [[5]; [7]]%Z /\
  Forall (fun rds => length rds = 1%nat /\ Forall (fun rd => 0 <= rd < 2 ^ 32)%Z rds /\ NoDup (map (keygen_run draw xof F zt fuel sfuel lg pk0 sk0) rds)) [[5]; [7]]%Z.
Proof.
  intros. split; [constructor; [intros [H|[]]; discriminate H|constructor; [intros []|constructor]]|].
  constructor; [|constructor; [|constructor]]; (split; [reflexivity|]; split; [constructor; [split; reflexivity || discriminate|constructor]|constructor; [intros []|constructor]]).
Qed.
