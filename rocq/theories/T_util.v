(** T_util.v -- claims C51 (the generator's seed), C52 and C56 (hex helpers). *)
From Verif Require Import Base Spec M_codec M_sig M_verify M_samp M_float M_fft M_ntru M_tree M_util P_util.
Open Scope Z_scope.

(** C51: for every engine, distribution, XOF and floating point behaviour: keygen has at most 2^32 outcomes. *)
Theorem C51_keys : forall draw xof F (zt : list (D F * D F)) fuel sfuel lg pk0 sk0, exists L, Z.of_nat (length L) = 2 ^ 32 /\
  forall rd, 0 <= rd < 2 ^ 32 -> In (keygen_run draw xof F zt fuel sfuel lg pk0 sk0 rd) L.
Proof. intros. exact (few_values _). Qed.
Print Assumptions C51_keys.
(** All signatures ever made with sign(skey,...), under all keys, use at most 2^32 of the 2^320 salts. *)
Theorem C51_salts : forall draw xof, exists L, Z.of_nat (length L) = 2 ^ 32 /\
  forall F (zt : list (D F * D F)) fuel sfuel lg skey msg sig sig' rd, falcon_lg lg -> (sig_bytes lg <= length sig)%nat -> 0 <= rd < 2 ^ 32 ->
    sign_run draw xof F zt fuel sfuel lg skey msg sig rd = Ok (true, sig') -> In (firstn 40 (skipn 1 sig')) L.
Proof. exact few_salts. Qed.
Print Assumptions C51_salts.
(** Among any 2^32 + 1 generators two produce the same stream. *)
Theorem C51_repeats : forall draw xof (rds : nat -> Z), (forall i, 0 <= rds i < 2 ^ 32) ->
  exists i j, (i < j)%nat /\ Z.of_nat j <= 2 ^ 32 /\ prng_init draw xof (rds i) = prng_init draw xof (rds j).
Proof. exact prng_repeats. Qed.
Print Assumptions C51_repeats.
(** The expectation that every 32-byte seed can occur fails, whatever engine and distribution are used. *)
Theorem C51_all_seeds_refuted : forall draw, exists s, length s = 32%nat /\ bytes s /\ forall rd, 0 <= rd < 2 ^ 32 -> prng_seed draw rd <> s.
Proof. exact seed_missed. Qed.
Print Assumptions C51_all_seeds_refuted.
(** The seed is a full 32-byte buffer, its bytes the 32 draws, and the generator is the XOF of exactly that buffer. *)
Theorem C51_seed_buffer : forall draw xof rd, exists s, length s = 32%nat /\ bytes s /\ (forall i, (i < 32)%nat -> nth i s 0 = draw rd i mod 256) /\
  prng_seed draw rd = s /\ prng_init draw xof rd = xof s.
Proof. exact seed_shape. Qed.
Print Assumptions C51_seed_buffer.
Example C51_sat : 0 <= 3735928559 < 2 ^ 32 /\ prng_seed (fun v i => v * Z.of_nat (i + 1)) 3735928559 <> prng_seed (fun v i => v * Z.of_nat (i + 1)) 1.
Proof. split; [lia|]. intros H. apply (f_equal (fun l => nth 0 l 0)) in H. vm_compute in H. discriminate. Qed.

(** C52: bytes to hex and back, *)
Theorem C52_round_trip : forall l out, bytes l -> length out = length l -> to_byte_array (to_hex l) out = Ok l.
Proof. exact hex_round. Qed.
Print Assumptions C52_round_trip.
(** lower-case hex to bytes and back, *)
Theorem C52_round_trip_string : forall n s out, length s = (2 * n)%nat -> Forall (fun c => 48 <= c <= 57 \/ 97 <= c <= 102) s -> length out = n ->
  exists r, to_byte_array s out = Ok r /\ bytes r /\ to_hex r = s.
Proof. exact hex_round'. Qed.
Print Assumptions C52_round_trip_string.
(** and the text itself: two characters per byte, high digit first. *)
Theorem C52_text : forall l, bytes l -> length (to_hex l) = (2 * length l)%nat /\
  forall i, (i < length l)%nat -> let digit d := nth (Z.to_nat d) [48; 49; 50; 51; 52; 53; 54; 55; 56; 57; 97; 98; 99; 100; 101; 102] 0 in
    nth (2 * i) (to_hex l) 0 = digit (nth i l 0 / 16) /\ nth (2 * i + 1) (to_hex l) 0 = digit (nth i l 0 mod 16).
Proof. exact hex_text. Qed.
Print Assumptions C52_text.
(** Reading a string: the pair of digits at 2 i, in lower case or capitals, becomes the byte i. *)
Theorem C52_value : forall s out i x y, (length s / 2 <= length out)%nat -> (2 * i + 1 < length s)%nat -> 0 <= x < 16 -> 0 <= y < 16 ->
  let lower d := nth (Z.to_nat d) [48; 49; 50; 51; 52; 53; 54; 55; 56; 57; 97; 98; 99; 100; 101; 102] 0 in
  let upper d := nth (Z.to_nat d) [48; 49; 50; 51; 52; 53; 54; 55; 56; 57; 65; 66; 67; 68; 69; 70] 0 in
  nth (2 * i) s 0 = lower x \/ nth (2 * i) s 0 = upper x -> nth (2 * i + 1) s 0 = lower y \/ nth (2 * i + 1) s 0 = upper y ->
  exists r, to_byte_array s out = Ok r /\ nth i r 0 = 16 * x + y.
Proof. exact hex_value. Qed.
Print Assumptions C52_value.
Example C52_sat_value : (length [65; 98; 48; 70] / 2 <= length [0; 0])%nat /\ to_byte_array [65; 98; 48; 70] [0; 0] = Ok [171; 15].
Proof. split; [cbn; lia|reflexivity]. Qed.
Example C52_sat : bytes [0; 10; 255; 16] /\ to_hex [0; 10; 255; 16] = [48; 48; 48; 97; 102; 102; 49; 48].
Proof. split; [repeat constructor; unfold byte; lia|reflexivity]. Qed.

(** C56: to_byte_array does not reject malformed text.  For every string and large enough buffer it returns normally,
    and a pair that does not start with a digit, a sign or a space becomes 0. *)
Theorem C56_rejects_malformed_refuted : exists s s', s <> s' /\ Forall (fun c => ~ (48 <= c <= 57 \/ 97 <= c <= 102 \/ 65 <= c <= 70)) s /\
  forall out, length out = 1%nat -> to_byte_array s out = Ok [0] /\ to_byte_array s' out = Ok [0].
Proof. exact hex_malformed. Qed.
Print Assumptions C56_rejects_malformed_refuted.
Theorem C56_in_bounds : forall s out, (length s / 2 <= length out)%nat ->
  exists r, to_byte_array s out = Ok r /\ length r = length out /\
    forall i, (i < length out)%nat -> nth i r 0 = if (i <? length s / 2)%nat then u8 (strtol16 (firstn 2 (skipn (i * 2) s))) else nth i out 0.
Proof. exact to_byte_array_ok. Qed.
Print Assumptions C56_in_bounds.
Example C56_sat : (length [122; 122; 45] / 2 <= length [7; 7])%nat /\ to_byte_array [122; 122; 45] [7; 7] = Ok [0; 7].
Proof. split; [cbn; lia|reflexivity]. Qed.
