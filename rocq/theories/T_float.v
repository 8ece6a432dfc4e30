(** T_float.v -- claims C61, C62: the FFT and products of polynomials in rounded arithmetic. *)
From Coq Require Import SpecFloat.
From Verif Require Import Base Spec SpecR SpecF M_float M_exact M_ieee M_table M_fft M_tree P_near P_ieee P_float.
Open Scope R_scope.

(** What the claims below assume of double arithmetic and of the table holds of IEEE 754 binary64, round to nearest even,
    and of the literals of fft.hpp in any arithmetic that meets the assumption. *)
Theorem C61_ieee : accurate F64 fin64 val64.
Proof. exact accurate64. Qed.
Print Assumptions C61_ieee.
Theorem C61_table : forall F fin val, accurate F fin val -> table_near F fin val (source_table F).
Proof. exact source_near. Qed.
Print Assumptions C61_table.
Example C61_sat : accurate RF (fun _ => True) (fun x => x) /\ table_near F64 fin64 val64 (source_table F64) /\
  val64 (fst (nth 2 (source_table F64) (c0 F64))) = 6369051672525773 / 9007199254740992.
Proof.
  split; [exact accurate_exact|]. split; [exact (source_near _ _ _ accurate64)|].
  change (val64 (S754_finite false 6369051672525773 (-53)) = 6369051672525773 / 9007199254740992). unfold val64. change (powerRZ 2 (-53)) with (/ 2 ^ 53). simpl pow. field.
Qed.

(** C61: the transforms, applied to a vector at distance e from v, return a vector close to the exact transform of v *)
Theorem C61_fft : forall F fin val, accurate F fin val -> forall ztab, table_near F fin val ztab ->
  forall lg l v e K, (lg <= 10)%nat -> length v = (2 ^ lg)%nat -> approx F fin val l v e -> vnorm v <= K -> 0 <= e <= K / 2000 -> / 10 ^ 40 <= K <= 10 ^ 37 ->
  exists w, fft F ztab lg l = Ok w /\ approx F fin val w (values lg v) (sqrt (INR (2 ^ lg)) * (e + INR lg * (2 / 10 ^ 15) * K)).
Proof. exact fft_approx. Qed.
Print Assumptions C61_fft.
Theorem C61_ifft : forall F fin val, accurate F fin val -> forall ztab, table_near F fin val ztab ->
  forall lg l v e K, (lg <= 10)%nat -> length v = (2 ^ lg)%nat -> approx F fin val l (values lg v) e -> vnorm (values lg v) <= K -> 0 <= e <= K / 2000 -> / 10 ^ 40 <= K <= 10 ^ 37 ->
  exists w, ifft F ztab lg l = Ok w /\ approx F fin val w v ((e + (INR lg + 1) * (2 / 10 ^ 15) * K) / sqrt (INR (2 ^ lg))).
Proof. exact ifft_approx. Qed.
Print Assumptions C61_ifft.
(** transforming, transforming back and rounding returns every vector of 32-bit integers (-2^31 excepted) *)
Theorem C61_round_trip : forall F fin val, accurate F fin val -> forall ztab, table_near F fin val ztab ->
  forall lg (a out : list Z), (lg <= 10)%nat -> length a = (2 ^ lg)%nat -> length out = (2 ^ lg)%nat -> Forall (fun x => -2147483647 <= x <= 2147483647)%Z a ->
  (l <- of_ints F lg a ;; l <- fft F ztab lg l ;; l <- ifft F ztab lg l ;; round_poly F lg l out) = Ok a.
Proof. exact round_trip. Qed.
Print Assumptions C61_round_trip.
Example C61_round_trip_sat : Forall (fun x => -2147483647 <= x <= 2147483647)%Z [2147483647; -2147483647; 5; 0]%Z /\
  (l <- of_ints F64 2 [2147483647; -2147483647; 5; 0]%Z ;; l <- fft F64 (source_table F64) 2 l ;; l <- ifft F64 (source_table F64) 2 l ;; round_poly F64 2 l (repeat 0%Z 4)) = Ok [2147483647; -2147483647; 5; 0]%Z.
Proof. split; [repeat (constructor; [lia|]); constructor|]. apply (round_trip F64 fin64 val64 accurate64 _ (source_near _ _ _ accurate64)); [lia|reflexivity|reflexivity|repeat (constructor; [lia|]); constructor]. Qed.

(** C62: the product of two integer polynomials computed through the FFT is exact *)
Theorem C62_product : forall F fin val, accurate F fin val -> forall ztab, table_near F fin val ztab ->
  forall lg (a b out : list Z), (lg <= 10)%nat -> length a = (2 ^ lg)%nat -> length b = (2 ^ lg)%nat -> length out = (2 ^ lg)%nat ->
  (1 <= sqnorm a)%Z -> (1 <= sqnorm b)%Z -> (sqnorm a * sqnorm b <= 10 ^ 22)%Z -> Forall (fun x => -2147483647 <= x <= 2147483647)%Z (negacyclic (2 ^ lg) a b) ->
  (x <- of_ints F lg a ;; y <- of_ints F lg b ;; x <- fft F ztab lg x ;; y <- fft F ztab lg y ;; w <- cpoly_mul F lg x y (fresh F (2 ^ lg)) ;;
   w <- ifft F ztab lg w ;; round_poly F lg w out) = Ok (negacyclic (2 ^ lg) a b).
Proof. exact fft_product. Qed.
Print Assumptions C62_product.
Example C62_sat : let a := [30000; -12345; 777; 1]%Z in let b := [-20000; 31; 9999; 4]%Z in
  (sqnorm a * sqnorm b <= 10 ^ 22)%Z /\ Forall (fun x => -2147483647 <= x <= 2147483647)%Z (negacyclic 4 a b).
Proof.
  cbv zeta. split; [vm_compute; discriminate|].
  assert (E : negacyclic 4 [30000; -12345; 777; 1]%Z [-20000; 31; 9999; 4]%Z = [-607719874; 247816893; 284047301; -123313568]%Z) by reflexivity. rewrite E. repeat (constructor; [lia|]). constructor.
Qed.
