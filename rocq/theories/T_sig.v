(** T_sig.v -- claims C16-C21: signature compression and decompression.
    Vocabulary (Spec.v): [enc] the codeword of the specification, [encs] their concatenation,
    [tot] its length, [codeword] the language of one coefficient, [accepts] the accepted bodies. *)
From Verif Require Import Base Spec M_ff M_codec M_sig P_nttx P_sigx P_decomp P_comp.
Open Scope Z_scope.

(** C16: full behaviour of compress_sig. *)
Theorem C16_compress : forall lg s (sig : list Z), falcon_lg lg -> length s = (2 ^ lg)%nat -> length sig = sig_bytes lg ->
  (tot s <= 14 * 2 ^ Z.of_nat lg ->
    exists body, compress_sig lg s sig = Ok (tot s <? body_len lg, firstn 41 sig ++ body) /\
      bytes body /\ length body = (sig_bytes lg - 41)%nat /\
      (tot s < body_len lg -> bits_of body = encs s ++ repeat false (Z.to_nat (body_len lg - tot s))) /\
      (body_len lg <= tot s -> body = repeat 0 (sig_bytes lg - 41))) /\
  (14 * 2 ^ Z.of_nat lg < tot s -> compress_sig lg s sig = UB).
Proof. exact compress_ok. Qed.
Print Assumptions C16_compress.
Example C16_sat : enc (-300) = [true; false;true;false;true;true;false;false; false;false; true] /\
  tot (repeat (-300) 512) < body_len 9 + 1000 /\ body_len 9 = 5000 /\ body_len 10 = 9912 /\ tot (repeat 3 512) < body_len 9.
Proof. vm_compute. repeat split; congruence. Qed.

(** C17: no out-of-bounds access for vectors that pass the norm bound; it exists without it. *)
Theorem C17_compress_in_bounds : forall lg s (sig : list Z), falcon_lg lg -> length s = (2 ^ lg)%nat -> length sig = sig_bytes lg ->
  sqnorm s <= beta2 lg -> exists b e, compress_sig lg s sig = Ok (b, e) /\ length e = sig_bytes lg.
Proof. exact compress_no_oob. Qed.
Print Assumptions C17_compress_in_bounds.
Theorem C17_all_vectors_refuted : forall lg (sig : list Z), falcon_lg lg -> length sig = sig_bytes lg ->
  exists s, length s = (2 ^ lg)%nat /\ Forall (fun x => Z.abs x <= 768) s /\ compress_sig lg s sig = UB.
Proof. exact compress_oob. Qed.
Print Assumptions C17_all_vectors_refuted.
Example C17_sat : sqnorm (repeat 257 512) <= beta2 9 /\ sqnorm (repeat (-261) 1024) <= beta2 10.
Proof. vm_compute. split; congruence. Qed.

(** C18: what compress_sig accepted is read back exactly when all coefficients are below 1024.
    [x] is whatever memory follows the signature (see C21). *)
Theorem C18_round_trip_iff : forall lg s sig e x (p0 : list Z), falcon_lg lg -> length s = (2 ^ lg)%nat ->
  length sig = sig_bytes lg -> bytes sig -> bytes x -> (2 <= length x)%nat -> length p0 = (2 ^ lg)%nat ->
  compress_sig lg s sig = Ok (true, e) ->
  (decompress_sig lg (e ++ x) p0 = Ok (true, s) <-> Forall (fun c => Z.abs c <= 1023) s).
Proof. exact roundtrip. Qed.
Print Assumptions C18_round_trip_iff.
(** the unrestricted claim fails, already for vectors within the norm bound *)
Theorem C18_round_trip_refuted : forall lg sig x (p0 : list Z), falcon_lg lg -> length sig = sig_bytes lg -> bytes sig ->
  bytes x -> (2 <= length x)%nat -> length p0 = (2 ^ lg)%nat ->
  exists s e, length s = (2 ^ lg)%nat /\ sqnorm s <= beta2 lg /\ compress_sig lg s sig = Ok (true, e) /\
    decompress_sig lg (e ++ x) p0 <> Ok (true, s).
Proof. exact big_coeff. Qed.
Print Assumptions C18_round_trip_refuted.
Example C18_sat : exists e, compress_sig 9 (repeat 0 512) (repeat 0 666) = Ok (true, e).
Proof. destruct (zero_compress 9 (repeat 0 666)) as (e & E & _); [left; reflexivity|reflexivity|apply Forall_rep; unfold byte; lia|]. exists e. exact E. Qed.

(** C19: uniqueness holds without runs of 8 zeros, and fails in general: every vector with a coefficient
    below 128 and 17 spare bits has at least three encodings. *)
Theorem C19_short_unique : forall lg mem mem' s ws ws' z z', falcon_lg lg -> length mem = sig_bytes lg -> length mem' = sig_bytes lg ->
  bytes mem -> bytes mem' -> firstn 41 mem = firstn 41 mem' ->
  Forall2 short_codeword ws s -> body_bits lg mem = concat ws ++ repeat false z ->
  Forall2 short_codeword ws' s -> body_bits lg mem' = concat ws' ++ repeat false z' -> mem = mem'.
Proof. exact short_unique. Qed.
Print Assumptions C19_short_unique.
Theorem C19_unique_refuted : forall lg pre a c r, falcon_lg lg -> length pre = 41%nat -> bytes pre ->
  length (a ++ c :: r) = (2 ^ lg)%nat -> Forall (fun x => Z.abs x <= 1023) (a ++ c :: r) -> Z.abs c <= 127 ->
  tot (a ++ c :: r) + 16 < body_len lg ->
  exists e e' e'', e <> e' /\ e <> e'' /\ e' <> e'' /\
   Forall (fun m => length m = sig_bytes lg /\ bytes m /\ firstn 41 m = pre /\
     forall x p0, bytes x -> (2 <= length x)%nat -> length p0 = (2 ^ lg)%nat ->
       decompress_sig lg (m ++ x) p0 = Ok (true, a ++ c :: r)) [e; e'; e''].
Proof. exact malleable. Qed.
Print Assumptions C19_unique_refuted.
Example C19_sat : length ([5; -7] ++ 100 :: repeat 90 509) = (2 ^ 9)%nat /\ tot ([5; -7] ++ 100 :: repeat 90 509) + 16 < body_len 9 /\
  short_codeword (enc (-300)) (-300).
Proof. split; [reflexivity|]. split; [vm_compute; reflexivity|]. apply enc_short. vm_compute. congruence. Qed.

(** C20: decompress_sig is total (given two readable bytes after the signature), returns true exactly on
    the bodies of the grammar, with the vector they denote, and zeroes its output otherwise. *)
Theorem C20_accepted_language : forall lg mem p0, falcon_lg lg -> bytes mem -> (sig_bytes lg + 2 <= length mem)%nat -> length p0 = (2 ^ lg)%nat ->
  exists b s, decompress_sig lg mem p0 = Ok (b, s) /\
    (b = false -> s = repeat 0 (2 ^ lg)) /\ (b = true -> accepts lg mem s) /\
    (forall s', accepts lg mem s' -> b = true /\ s = s').
Proof. exact decompress_iff. Qed.
Print Assumptions C20_accepted_language.
Theorem C20_decode_sig : forall lg mem (salt0 p0 : list Z), falcon_lg lg -> bytes mem -> (sig_bytes lg + 2 <= length mem)%nat ->
  length salt0 = 40%nat -> length p0 = (2 ^ lg)%nat ->
  exists b salt s, decode_sig lg mem salt0 p0 = Ok (b, salt, s) /\ length s = (2 ^ lg)%nat /\ length salt = 40%nat /\
    (b = true -> nth 0 mem 0 = 48 + Z.of_nat lg /\ salt = firstn 40 (skipn 1 mem) /\ accepts lg mem s) /\
    (forall s', nth 0 mem 0 = 48 + Z.of_nat lg -> accepts lg mem s' -> b = true /\ s = s').
Proof. exact decode_sig_ok. Qed.
Print Assumptions C20_decode_sig.
Example C20_sat : codeword (enc 1023) 1023 /\ codeword (enc (-1)) (-1) /\ codeword (long_form (-5) true) (-5) /\ ~ codeword (enc 1024) 1024.
Proof.
  split; [apply enc_codeword; vm_compute; congruence|]. split; [apply enc_codeword; vm_compute; congruence|].
  split; [apply long_form_codeword; vm_compute; congruence|]. intros H. apply codeword_bound in H. vm_compute in H. apply H. reflexivity.
Qed.

(** C21: the memory after the signature never influences the result ... *)
Theorem C21_slack_irrelevant : forall lg e x y p0, falcon_lg lg -> length e = sig_bytes lg -> bytes e -> bytes x -> bytes y ->
  (2 <= length x)%nat -> (2 <= length y)%nat -> length p0 = (2 ^ lg)%nat ->
  decompress_sig lg (e ++ x) p0 = decompress_sig lg (e ++ y) p0.
Proof.
  intros lg e x y p0 Hlg Le Be Bx By Lx Ly Lp.
  assert (BB : forall z, body_bits lg (e ++ z) = body_bits lg e).
  { intros z. unfold body_bits. rewrite skipn_app, firstn_app, skipn_length, Le, Nat.sub_diag, firstn_O, app_nil_r. reflexivity. }
  assert (AA : forall s, accepts lg (e ++ x) s <-> accepts lg (e ++ y) s) by (intros s; unfold accepts; rewrite !BB; reflexivity).
  destruct (decompress_iff lg (e ++ x) p0 Hlg) as (b & s & -> & A0 & A1 & A2); [apply Forall_app; auto|change (sig_len lg) with (sig_bytes lg); rewrite app_length; lia|exact Lp|].
  destruct (decompress_iff lg (e ++ y) p0 Hlg) as (b' & s' & -> & A0' & A1' & A2'); [apply Forall_app; auto|change (sig_len lg) with (sig_bytes lg); rewrite app_length; lia|exact Lp|].
  destruct b.
  - destruct (A2' s) as [-> ->]; [apply AA, A1; reflexivity|reflexivity].
  - destruct b'; [|rewrite A0, A0' by reflexivity; reflexivity].
    destruct (A2 s') as [X _]; [apply AA, A1'; reflexivity|discriminate].
Qed.
Print Assumptions C21_slack_irrelevant.
(** ... but without slack honest signatures whose padding is a multiple of 8 bits cause an out-of-bounds
    read; with other paddings of at least 8 bits they do not. *)
Theorem C21_exact_buffer : forall lg s sig e (p0 : list Z), falcon_lg lg -> length s = (2 ^ lg)%nat -> length sig = sig_bytes lg -> bytes sig ->
  Forall (fun c => Z.abs c <= 1023) s -> compress_sig lg s sig = Ok (true, e) -> length p0 = (2 ^ lg)%nat ->
  8 <= body_len lg - tot s ->
  ((body_len lg - tot s) mod 8 = 0 -> decompress_sig lg e p0 = UB) /\
  ((body_len lg - tot s) mod 8 <> 0 -> decompress_sig lg e p0 = Ok (true, s)).
Proof. exact honest_oob. Qed.
Print Assumptions C21_exact_buffer.
Theorem C21_in_bounds_refuted : forall lg (p0 : list Z), falcon_lg lg -> length p0 = (2 ^ lg)%nat ->
  exists e, length e = sig_bytes lg /\ bytes e /\ decompress_sig lg e p0 = UB /\
    forall x, bytes x -> (2 <= length x)%nat -> exists s, decompress_sig lg (e ++ x) p0 = Ok (true, s).
Proof.
  intros lg p0 Hlg Lp. set (sig := repeat 0 (sig_bytes lg)).
  assert (Bs : bytes sig) by (apply Forall_rep; unfold byte; lia). assert (Lsig : length sig = sig_bytes lg) by apply repeat_length.
  assert (F : Forall (fun c => Z.abs c <= 1023) (repeat 0 (2 ^ lg))) by (apply Forall_rep; simpl; lia).
  destruct (zero_compress lg sig Hlg Lsig Bs) as (e & E & Z8 & Zm).
  destruct (compress_true lg _ sig e Hlg (repeat_length _ _) Lsig Bs E) as (Le & Be & _).
  exists e. split; [exact Le|]. split; [exact Be|].
  split; [apply (honest_oob lg _ sig e p0 Hlg (repeat_length _ _) Lsig Bs F E Lp Z8); exact Zm|].
  intros x Bx Lx. exists (repeat 0 (2 ^ lg)). apply (roundtrip lg _ sig e x p0 Hlg (repeat_length _ _) Lsig Bs Bx Lx Lp E). exact F.
Qed.
Print Assumptions C21_in_bounds_refuted.
