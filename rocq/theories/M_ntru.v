(** M_ntru.v -- karatsuba.hpp and ntru_gen.hpp: big-integer polynomial arithmetic, NTRU equation solver, NTRU key
    generation.  mpz_class is Z.  Template recursion on N = 2^lg is recursion on lg. *)
From Verif Require Import Base M_ff M_xform M_ntt M_codec M_float M_samp M_fft.
Open Scope Z_scope.

(** karatsuba.hpp 17-65.  Arrays of mpz_class start as zeros. *)
Fixpoint karatsuba (lg : nat) (polya polyb : list Z) : res (list Z) :=
  match lg with
  | O => a <- rd polya 0 ;; b <- rd polyb 0 ;; Ok [a * b; 0]
  | S lg' =>
    let Nby2 := (2 ^ lg')%nat in
    let N := (2 * Nby2)%nat in
    (* 37-46 *)
    '(a0, a1, b0, b1, ax, bx) <-
      forn Nby2 0 (fun i '(a0, a1, b0, b1, ax, bx) =>
        al <- rd polya i ;; ah <- rd polya (Nby2 + i) ;;
        bl <- rd polyb i ;; bh <- rd polyb (Nby2 + i) ;;
        a0 <- wr a0 i al ;; a1 <- wr a1 i ah ;;
        b0 <- wr b0 i bl ;; b1 <- wr b1 i bh ;;
        ax <- wr ax i (al + ah) ;; bx <- wr bx i (bl + bh) ;;
        Ok (a0, a1, b0, b1, ax, bx))
      (repeat 0 Nby2, repeat 0 Nby2, repeat 0 Nby2, repeat 0 Nby2, repeat 0 Nby2, repeat 0 Nby2) ;;
    (* 48-50 *)
    a0b0 <- karatsuba lg' a0 b0 ;;
    a1b1 <- karatsuba lg' a1 b1 ;;
    axbx <- karatsuba lg' ax bx ;;
    (* 52-54 *)
    axbx <- forn N 0 (fun i v => x <- rd v i ;; y <- rd a0b0 i ;; z <- rd a1b1 i ;; wr v i (x - (y + z))) axbx ;;
    (* 56-61 *)
    forn N 0 (fun i ab =>
      x <- rd ab i ;; y <- rd a0b0 i ;; ab <- wr ab i (x + y) ;;
      x <- rd ab (N + i) ;; y <- rd a1b1 i ;; ab <- wr ab (N + i) (x + y) ;;
      x <- rd ab (Nby2 + i) ;; y <- rd axbx i ;; wr ab (Nby2 + i) (x + y)) (repeat 0 (2 * N))
  end.

(** karatsuba.hpp 71-84 *)
Definition karamul (lg : nat) (polya polyb : list Z) : res (list Z) :=
  let N := (2 ^ lg)%nat in
  ab <- karatsuba lg polya polyb ;;
  forn N 0 (fun i r => x <- rd ab i ;; y <- rd ab (N + i) ;; wr r i (x - y)) (repeat 0 N).

(** ntru_gen.hpp 175-201, field_norm<N> with N = 2^lg, lg >= 1 *)
Definition field_norm (lg : nat) (poly : list Z) : res (list Z) :=
  let Nby2 := (2 ^ lg / 2)%nat in
  '(polye, polyo) <- forn Nby2 0 (fun i '(e, o) =>
      x <- rd poly (2 * i) ;; e <- wr e i x ;;
      y <- rd poly (2 * i + 1) ;; o <- wr o i y ;; Ok (e, o)) (repeat 0 Nby2, repeat 0 Nby2) ;;
  e_sq <- karamul (lg - 1) polye polye ;;
  o_sq <- karamul (lg - 1) polyo polyo ;;
  r <- forn (Nby2 - 1) 0 (fun i r => x <- rd r (i + 1) ;; y <- rd o_sq i ;; wr r (i + 1) (x - y)) e_sq ;;
  x <- rd r 0 ;; y <- rd o_sq (Nby2 - 1) ;; wr r 0 (x + y).

(** ntru_gen.hpp 209-237, xgcd.  mpz_class operator/ truncates. *)
Fixpoint xgcd_loop (fuel : nat) (old_r r old_s s old_t t : Z) : res (Z * Z * Z) :=
  if negb (r =? 0) then
    match fuel with
    | O => Fuel
    | S fuel' =>
      let quotient := Z.quot old_r r in
      xgcd_loop fuel' r (old_r - quotient * r) s (old_s - quotient * s) t (old_t - quotient * t)
    end
  else Ok (old_s, old_t, old_r).
Definition xgcd (fuel : nat) (x y : Z) : res (Z * Z * Z) := xgcd_loop fuel x y 1 0 0 1.

(** ntru_gen.hpp 246-257, lift<N> with N = 2^lg *)
Definition lift (lg : nat) (poly : list Z) : res (list Z) :=
  let N := (2 ^ lg)%nat in
  forn N 0 (fun i r => x <- rd poly i ;; wr r (2 * i) x) (repeat 0 (N * 2)).

(** ntru_gen.hpp 265-280 *)
Definition galois_conjugate (lg : nat) (poly : list Z) : res (list Z) :=
  let N := (2 ^ lg)%nat in
  forn N 0 (fun i r => x <- rd poly i ;; wr r i (if Nat.odd i then - x else x)) (repeat 0 N).

(** ntru_gen.hpp 288-303: while (v > 0) { len += 8; v >>= 8; }.  The loop runs at most log2|v| + 1 times. *)
Fixpoint abl_loop (fuel : nat) (v len : Z) : Z :=
  match fuel with
  | O => len
  | S fuel' => if v >? 0 then abl_loop fuel' (Z.shiftr v 8) (len + 8) else len
  end.
Definition approx_bit_len (v : Z) : Z := abl_loop (S (Z.to_nat (Z.log2 (Z.abs v)))) (Z.abs v) 0.

(** ntru_gen.hpp 307-325 *)
Definition min_max (lg : nat) (arr : list Z) : res (Z * Z) :=
  a <- rd arr 0 ;;
  forn (2 ^ lg - 1) 1 (fun i '(mn, mx) =>
    x <- rd arr i ;; Ok (if mn >? x then x else mn, if mx <? x then x else mx)) (a, a).

Section Float.
Variable F : fops.
Notation C := (D F * D F)%type.
Variable ztab : list C.

(** the common expression max(53, bit lengths of the extrema), ntru_gen.hpp 340-346 and 368-375 *)
Definition blen (lg : nat) (f g : list Z) : res Z :=
  '(f1, f2) <- min_max lg f ;;
  '(g1, g2) <- min_max lg g ;;
  Ok (Z.max 53 (Z.max (Z.max (approx_bit_len f1) (approx_bit_len f2)) (Z.max (approx_bit_len g1) (approx_bit_len g2)))).

(** cmplx{ mpz_class(f[i] >> sh).get_d() }, then fft; ntru_gen.hpp 353-359, 386-392 *)
Definition adjust (lg : nat) (sh : Z) (f : list Z) : res (list C) :=
  p <- forn (2 ^ lg) 0 (fun i v => x <- rd f i ;; wr v i (cof F (fofz F (Z.shiftr x sh)))) (fresh F (2 ^ lg)) ;;
  fft F ztab lg p.

(** ntru_gen.hpp 367-447 *)
Fixpoint reduce_loop (fuel : nat) (lg : nat) (f g : list Z) (blen0 : Z) (f_adjust g_adjust f_adjoint g_adjoint : list C)
    (F_ G_ : list Z) : res (list Z * list Z) :=
  match fuel with
  | O => Fuel
  | S fuel' =>
    let N := (2 ^ lg)%nat in
    blen1 <- blen lg F_ G_ ;;
    if blen1 <? blen0 then Ok (F_, G_)
    else
      F_adjust <- adjust lg (blen1 - 53) F_ ;;
      G_adjust <- adjust lg (blen1 - 53) G_ ;;
      (* F_adjoint, G_adjoint (394-398) are computed and never used *)
      ff_mul <- cpoly_mul F lg f_adjust f_adjoint (fresh F N) ;;
      gg_mul <- cpoly_mul F lg g_adjust g_adjoint (fresh F N) ;;
      Ff_mul <- cpoly_mul F lg F_adjust f_adjoint (fresh F N) ;;
      Gg_mul <- cpoly_mul F lg G_adjust g_adjoint (fresh F N) ;;
      ffgg_add <- cpoly_add F lg ff_mul gg_mul (fresh F N) ;;
      FfGg_add <- cpoly_add F lg Ff_mul Gg_mul (fresh F N) ;;
      k <- cpoly_div F lg FfGg_add ffgg_add (fresh F N) ;;
      k <- ifft F ztab lg k ;;
      k_rounded <- forn N 0 (fun i v => x <- rd k i ;; y <- to_i64 F (fround F (fst x)) ;; wr v i y) (repeat 0 N) ;;
      nz <- forn N 0 (fun i flg => x <- rd k_rounded i ;; Ok (flg || negb (x =? 0))) false ;;
      if negb nz then Ok (F_, G_)
      else
        fk <- karamul lg f k_rounded ;;
        gk <- karamul lg g k_rounded ;;
        '(F_, G_) <- forn N 0 (fun i '(F_, G_) =>
            x <- rd F_ i ;; y <- rd fk i ;; F_ <- wr F_ i (x - Z.shiftl y (blen1 - blen0)) ;;
            x <- rd G_ i ;; y <- rd gk i ;; G_ <- wr G_ i (x - Z.shiftl y (blen1 - blen0)) ;;
            Ok (F_, G_)) (F_, G_) ;;
        reduce_loop fuel' lg f g blen0 f_adjust g_adjust f_adjoint g_adjoint F_ G_
  end.

(** ntru_gen.hpp 332-448, reduce<N>: returns the new F, G *)
Definition reduce (fuel : nat) (lg : nat) (f g F_ G_ : list Z) : res (list Z * list Z) :=
  blen0 <- blen lg f g ;;
  f_adjust <- adjust lg (blen0 - 53) f ;;
  g_adjust <- adjust lg (blen0 - 53) g ;;
  f_adjoint <- adj_poly F lg f_adjust ;;
  g_adjoint <- adj_poly F lg g_adjust ;;
  reduce_loop fuel lg f g blen0 f_adjust g_adjust f_adjoint g_adjoint F_ G_.

(** ntru_gen.hpp 473-505, ntru_solve<N> with N = 2^lg; None: the returned status is "failed" *)
Fixpoint ntru_solve (fuel : nat) (lg : nat) (f g : list Z) : res (option (list Z * list Z)) :=
  match lg with
  | O =>
    x <- rd f 0 ;; y <- rd g 0 ;;
    '(a, b, d) <- xgcd fuel x y ;;
    if negb (d =? 1) then Ok None
    else Ok (Some ([- Q * b], [Q * a]))
  | S lg' =>
    fprime <- field_norm lg f ;;
    gprime <- field_norm lg g ;;
    ret <- ntru_solve fuel lg' fprime gprime ;;
    match ret with
    | None => Ok None
    | Some (F', G') =>
      l <- lift lg' F' ;; gc <- galois_conjugate lg g ;; F_ <- karamul lg l gc ;;
      l <- lift lg' G' ;; fc <- galois_conjugate lg f ;; G_ <- karamul lg l fc ;;
      '(F_, G_) <- reduce fuel lg f g F_ G_ ;;
      Ok (Some (F_, G_))
    end
  end.

(** samplerz.hpp 21-24, ntru_gen.hpp 25-28 *)
Definition sigma_min (lg : nat) : D F := if Nat.eqb lg 10 then flit F 1298280334 9 else flit F 1277833697 9.
Definition sigma_fg : D F := flit F 143300980528773 14.

(** ntru_gen.hpp 18-39, gen_poly<LOG2N>; int32_t res, signed addition *)
Definition gen_coeff (fuel : nat) (lg k : nat) (g : rng_t) (pos : nat) : res (Z * nat) :=
  forn k 0 (fun _ '(r, pos) =>
    '(z, pos) <- samplerz F fuel (fofz F 0) sigma_fg (sigma_min lg) g pos ;;
    r <- s32 Strict (r + z) ;; Ok (r, pos)) (0, pos).
Definition gen_poly (fuel : nat) (lg : nat) (g : rng_t) (pos : nat) (poly : list Z) : res (list Z * nat) :=
  let k := (4096 / 2 ^ lg)%nat in
  forn (2 ^ lg) 0 (fun i '(poly, pos) =>
    '(r, pos) <- gen_coeff fuel lg k g pos ;;
    poly <- wr poly i r ;; Ok (poly, pos)) (poly, pos).

(** ntru_gen.hpp 12 *)
Definition gs_norm_threshold : D F := fmul F (fmul F (flit F 117 2) (flit F 117 2)) (fofz F Q).

(** ntru_gen.hpp 110-166 *)
Definition gram_schmidt_norm (lg : nat) (f g : list Z) : res (D F) :=
  let N := (2 ^ lg)%nat in
  let q := fofz F Q in
  tmp0 <- forn N 0 (fun i v => x <- rd f i ;; wr v i (fofz F x)) (repeat (fofz F 0) N) ;;
  tmp1 <- forn N 0 (fun i v => x <- rd g i ;; wr v i (fofz F x)) (repeat (fofz F 0) N) ;;
  n0 <- sqrd_norm_d F lg tmp0 ;;
  n1 <- sqrd_norm_d F lg tmp1 ;;
  let sq_norm_fg := fadd F n0 n1 in
  f_ <- forn N 0 (fun i v => x <- rd tmp0 i ;; wr v i (cof F x)) (fresh F N) ;;
  g_ <- forn N 0 (fun i v => x <- rd tmp1 i ;; wr v i (cof F x)) (fresh F N) ;;
  f_ <- fft F ztab lg f_ ;;
  g_ <- fft F ztab lg g_ ;;
  f_adj <- adj_poly F lg f_ ;;
  g_adj <- adj_poly F lg g_ ;;
  fxf_adj <- cpoly_mul F lg f_ f_adj (fresh F N) ;;
  gxg_adj <- cpoly_mul F lg g_ g_adj (fresh F N) ;;
  sum <- cpoly_add F lg fxf_adj gxg_adj (fresh F N) ;;
  ft <- cpoly_div F lg f_adj sum (fresh F N) ;;
  gt <- cpoly_div F lg g_adj sum (fresh F N) ;;
  n0 <- sqrd_norm_c F lg ft ;;
  n1 <- sqrd_norm_c F lg gt ;;
  Ok (fmax F sq_norm_fg (fmul F (fmul F q q) (fadd F n0 n1))).

(** mpz_class::get_si (GMP): the value if it fits in a signed long, else its low 63 bits with the sign of the value;
    then static_cast<int32_t> (modular).  ntru_gen.hpp 546-549 *)
Definition get_si (v : Z) : Z := if v >=? 0 then v mod 2 ^ 63 else -1 - ((- v - 1) mod 2 ^ 63).

(** ntru_gen.hpp 511-552, ntru_gen<N>: (f, g, F, G) and the generator position *)
Fixpoint ntru_gen (fuel : nat) (sfuel : nat) (lg : nat) (rng : rng_t) (pos : nat) (f g F_ G_ : list Z)
    : res (list Z * list Z * list Z * list Z * nat) :=
  match fuel with
  | O => Fuel
  | S fuel' =>
    let N := (2 ^ lg)%nat in
    '(f, pos) <- gen_poly sfuel lg rng pos f ;;
    '(g, pos) <- gen_poly sfuel lg rng pos g ;;
    inv <- is_poly_invertible lg f ;;
    if negb inv then ntru_gen fuel' sfuel lg rng pos f g F_ G_
    else
      gsnorm <- gram_schmidt_norm lg f g ;;
      if fgt F gsnorm gs_norm_threshold then ntru_gen fuel' sfuel lg rng pos f g F_ G_
      else
        ret <- ntru_solve sfuel lg f g ;;
        match ret with
        | None => ntru_gen fuel' sfuel lg rng pos f g F_ G_
        | Some (F', G') =>
          '(F_, G_) <- forn N 0 (fun i '(F_, G_) =>
              x <- rd F' i ;; F_ <- wr F_ i (i32 (get_si x)) ;;
              y <- rd G' i ;; G_ <- wr G_ i (i32 (get_si y)) ;; Ok (F_, G_)) (F_, G_) ;;
          Ok (f, g, F_, G_, pos)
        end
  end.
End Float.
