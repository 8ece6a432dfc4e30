(** T_teste.v -- claim C106: the tests of the key codecs. *)
From Verif Require Import Base Spec M_ff M_codec M_teste P_teste.
Open Scope Z_scope.

(** C106: the test EncodeDecodePublicKey passes for all drawn field elements, whatever the allocated memory held. *)
Theorem C106_pkey : forall lg h (pk0 h0 : list Z), falcon_lg lg -> length h = (2 ^ lg)%nat -> Forall canon h -> length pk0 = pkey_len lg -> length h0 = (2 ^ lg)%nat ->
  test_encoding_pkey lg h pk0 h0 = Ok true.
Proof. exact test_pkey_ok. Qed.
Print Assumptions C106_pkey.
(** The test EncodeDecodeSecretKey ends without an access outside its arrays, and passes exactly if all coefficients of the generated f, g and F are in the range of the encoding. *)
Theorem C106_skey : forall lg f g F (sk0 f0 g0 F0 : list Z), falcon_lg lg -> length f = (2 ^ lg)%nat -> length g = (2 ^ lg)%nat -> length F = (2 ^ lg)%nat -> length sk0 = skey_len lg ->
  length f0 = (2 ^ lg)%nat -> length g0 = (2 ^ lg)%nat -> length F0 = (2 ^ lg)%nat ->
  exists b, test_encoding_skey lg f g F sk0 f0 g0 F0 = Ok b /\
    (b = true <-> Forall (fits (skey_modulus lg)) f /\ Forall (fits (skey_modulus lg)) g /\ Forall (fits 256) F).
Proof. exact test_skey_ok. Qed.
Print Assumptions C106_skey.
(** both answers occur *)
Example C106_sat : test_encoding_skey 9 (repeat (-32) 512) (repeat 31 512) (repeat 127 512) (repeat 0 1281) (repeat 0 512) (repeat 0 512) (repeat 0 512) = Ok true /\
  test_encoding_skey 9 (repeat (-32) 512) (repeat 31 512) (repeat 128 512) (repeat 0 1281) (repeat 0 512) (repeat 0 512) (repeat 0 512) = Ok false /\
  test_encoding_pkey 9 (repeat 12288 512) (repeat 0 897) (repeat 0 512) = Ok true.
Proof. split; [vm_compute; reflexivity|]. split; vm_compute; reflexivity. Qed.
