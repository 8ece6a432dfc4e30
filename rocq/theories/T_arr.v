(** T_arr.v -- the sampler that the known answer tests call and the one that key generation and signing call. *)
From Coq Require Import SpecFloat.
From Verif Require Import Base Spec SpecA M_float M_ieee M_samp P_arr.
Open Scope Z_scope.

(** C82: whatever the generator variant of samplerz returns after n bytes, the array variant returns the same value and
    length from an array that starts with the same n bytes, the nine proposal bytes of every attempt in the opposite order;
    for any floating point behaviour and whatever follows in the array. *)
Theorem C82_array_of_stream : forall (F : fops) fuel (mu sigma' sigma_min : D F) g v n,
  samplerz F fuel mu sigma' sigma_min g 0 = Ok (v, n) ->
  exists rbytes, turned (bytes_at g 0 n) rbytes /\
    forall extra, samplerz_arr F fuel mu sigma' sigma_min (rbytes ++ extra) (length (rbytes ++ extra)) = Ok (v, n).
Proof. exact arr_of_stream. Qed.
Print Assumptions C82_array_of_stream.
(** Conversely, when the array variant stops before the end of its array, the generator variant does the same on any stream
    that starts with those bytes, turned back. *)
Theorem C82_stream_of_array : forall (F : fops) fuel (mu sigma' sigma_min : D F) rbytes v n,
  samplerz_arr F fuel mu sigma' sigma_min rbytes (length rbytes) = Ok (v, n) -> (n < length rbytes)%nat ->
  exists l, turned l (firstn n rbytes) /\ length l = n /\
    forall g, bytes_at g 0 n = l -> samplerz F fuel mu sigma' sigma_min g 0 = Ok (v, n).
Proof. exact stream_of_arr. Qed.
Print Assumptions C82_stream_of_array.
(** A known answer of tests/test_samplerz.cpp (its second attempt is the accepted one), with one more byte, and its bytes
    turned back for the generator variant. *)
Example C82_sat :
  let mu := S754_finite true 6467219134421412 (-46) in let s := S754_finite false 7673228728303233 (-52) in
  let sm := S754_finite false 5754851361258101 (-52) in
  let kat := [15; 197; 68; 47; 240; 67; 214; 110; 145; 209; 234; 202; 198; 78; 165; 69; 10; 34; 148; 30; 220; 108] in
  let l := [145; 110; 214; 67; 240; 47; 68; 197; 15; 209; 234; 30; 148; 34; 10; 69; 165; 78; 198; 202; 220; 108] in
  samplerz_arr F64 2 mu s sm (kat ++ [0]) 23 = Ok (-92, 22%nat) /\ samplerz F64 2 mu s sm (fun i => nth i l 0) 0 = Ok (-92, 22%nat) /\
  turned l kat.
Proof.
  intros mu s sm kat l. split; [vm_compute; reflexivity|]. split; [vm_compute; reflexivity|].
  apply (turned_seg [145; 110; 214; 67; 240; 47; 68; 197; 15] [209; 234]); [reflexivity|cbn; lia|].
  apply (turned_seg [30; 148; 34; 10; 69; 165; 78; 198; 202] [220; 108] [] []); [reflexivity|cbn; lia|constructor].
Qed.
