(** M_teste.v -- the tests of the key codecs. *)
From Verif Require Import Base M_ff M_codec.
Open Scope Z_scope.

(** tests/test_encoding.cpp 14-42, test_encoding_pkey<N> for the drawn elements h; the malloc'ed arrays have arbitrary contents pk0, h0 *)
Definition test_encoding_pkey (lg : nat) (h pk0 h0 : list Z) : res bool :=
  pkey <- encode_pkey lg h pk0 ;;
  '(flg, h_) <- decode_pkey lg pkey h0 ;;
  success <- forn (2 ^ lg) 0 (fun i success => x <- rd h i ;; y <- rd h_ i ;; Ok (success && ff_eq x y)) true ;;
  Ok (flg && success).

(** tests/test_encoding.cpp 52-91, test_encoding_skey<N> for the polynomials f, g, F that ntru_gen returned; the malloc'ed arrays have arbitrary contents sk0, f0, g0, F0 *)
Definition test_encoding_skey (lg : nat) (f g F sk0 f0 g0 F0 : list Z) : res bool :=
  skey <- encode_skey lg f g F sk0 ;;
  '(flg, (f_, g_, F_)) <- decode_skey lg skey f0 g0 F0 ;;
  success <- forn (2 ^ lg) 0 (fun i success =>
    x <- rd f i ;; y <- rd f_ i ;; let success := success && (x =? y) in
    x <- rd g i ;; y <- rd g_ i ;; let success := success && (x =? y) in
    x <- rd F i ;; y <- rd F_ i ;; Ok (success && (x =? y))) true ;;
  Ok (flg && success).
