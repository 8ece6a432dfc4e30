(** M_tree.v -- keygen.hpp (Gram matrix, keygen), falcon_tree.hpp, ffsampling.hpp, signing.hpp and falcon.hpp.

    The tree T is one array; ffldl, normalize_tree and ff_sampling receive it with the offset of the node they work on
    (the C++ passes T + offset).  Template parameters N, AT_LEVEL, T_HEIGHT with N = 2^(T_HEIGHT - AT_LEVEL) become
    h (N = 2^h) and lvl = AT_LEVEL; tree_off = 2^lvl * N. *)
From Verif Require Import Base M_ff M_xform M_ntt M_codec M_sig M_verify M_float M_samp M_fft M_ntru.
Open Scope nat_scope.

Section Tree.
Variable F : fops.
Notation C := (D F * D F)%type.
Variable ztab : list C.

(** polynomial::mul(a + i, b + j, c + k) *)
Definition mul_at (lg : nat) (a : list C) (i : nat) (b : list C) (j : nat) (c : list C) (k : nat) : res (list C) :=
  let N := 2 ^ lg in
  x <- rds a i N ;; y <- rds b j N ;; o <- rds c k N ;;
  o <- cpoly_mul F lg x y o ;; wrs c k o.

(** keygen.hpp 24-61, compute_gram_matrix<N> *)
Definition compute_gram_matrix (lg : nat) (B G : list C) : res (list C) :=
  let N := 2 ^ lg in
  let add_at G k tmp := (o <- rds G k N ;; o <- cpoly_add_to F lg o tmp ;; wrs G k o) in
  B_adj <- rds B 0 (N * 2 * 2) ;;
  B_adj <- at_sub (adj_poly F lg) B_adj 0 N ;;
  B_adj <- at_sub (adj_poly F lg) B_adj N N ;;
  B_adj <- at_sub (adj_poly F lg) B_adj (2 * N) N ;;
  B_adj <- at_sub (adj_poly F lg) B_adj (3 * N) N ;;
  (* G[0][0] *)
  G <- mul_at lg B 0 B_adj 0 G 0 ;;
  tmp <- mul_at lg B N B_adj N (fresh F N) 0 ;;
  G <- add_at G 0 tmp ;;
  (* G[0][1] *)
  G <- mul_at lg B 0 B_adj (2 * N) G N ;;
  tmp <- mul_at lg B N B_adj (3 * N) tmp 0 ;;
  G <- add_at G N tmp ;;
  (* G[1][0] *)
  G <- mul_at lg B (2 * N) B_adj 0 G (2 * N) ;;
  tmp <- mul_at lg B (3 * N) B_adj N tmp 0 ;;
  G <- add_at G (2 * N) tmp ;;
  (* G[1][1] *)
  G <- mul_at lg B (2 * N) B_adj (2 * N) G (3 * N) ;;
  tmp <- mul_at lg B (3 * N) B_adj (3 * N) tmp 0 ;;
  add_at G (3 * N) tmp.

(** falcon_tree.hpp 13-36, ldl<N>; the three output arrays are returned *)
Definition ldl (lg : nat) (G : list C) : res (list C * list C * list C) :=
  let N := 2 ^ lg in
  g00 <- rds G 0 N ;; g10 <- rds G (2 * N) N ;; g11 <- rds G (3 * N) N ;;
  let d00 := g00 in
  l10 <- cpoly_div F lg g10 g00 (fresh F N) ;;
  tmp0 <- adj_poly F lg l10 ;;
  tmp1 <- cpoly_mul F lg l10 tmp0 (fresh F N) ;;
  tmp0 <- cpoly_mul F lg tmp1 g00 tmp0 ;;
  d11 <- cpoly_sub F lg g11 tmp0 (fresh F N) ;;
  Ok (l10, d00, d11).

(** falcon_tree.hpp 86-93 (and 95-99): the four memcpys and adj_poly<log2<N>>(G0 + N), on N cells: it conjugates
    both the copy of b and the copy of a *)
Definition child_gram (h : nat) (a b : list C) : res (list C) :=
  let N := 2 ^ h in
  G <- wrs (fresh F (N / 2 * 2 * 2)) 0 a ;;
  G <- wrs G (N / 2) b ;;
  G <- wrs G N b ;;
  G <- wrs G (N + N / 2) a ;;
  at_sub (adj_poly F h) G N N.

(** falcon_tree.hpp 54-106, ffldl<N, AT_LEVEL, T_HEIGHT>; h = 0 does not occur (requires N > 1) *)
Fixpoint ffldl (h lvl : nat) (G : list C) (T : list C) (off : nat) : res (list C) :=
  let N := 2 ^ h in
  let tree_off := 2 ^ lvl * N in
  match h with
  | O => UB
  | S h' =>
    '(l10, D00, D11) <- ldl h G ;;
    T <- wrs T off l10 ;;
    match h' with
    | O =>
      (* N = 2: memcpy of sizeof(D00) / 2 bytes, i.e. one element *)
      a <- rds D00 0 1 ;; T <- wrs T (off + tree_off) a ;;
      b <- rds D11 0 1 ;; wrs T (off + tree_off + N / 2) b
    | S _ =>
      '(d00, d01) <- split_fft F ztab h D00 (fresh F (N / 2)) (fresh F (N / 2)) ;;
      '(d10, d11) <- split_fft F ztab h D11 (fresh F (N / 2)) (fresh F (N / 2)) ;;
      G0 <- child_gram h d00 d01 ;;
      G1 <- child_gram h d10 d11 ;;
      T <- ffldl h' (S lvl) G0 T (off + tree_off) ;;
      ffldl h' (S lvl) G1 T (off + tree_off + N / 2)
    end
  end.

(** falcon_tree.hpp 110-134, normalize_tree *)
Definition norm_leaf (sigma : D F) (T : list C) (i : nat) : res (list C) :=
  x <- rd T i ;; wr T i (cof F (fdiv F sigma (fsqrt F (fst x)))).
Fixpoint normalize_tree (h lvl : nat) (T : list C) (off : nat) (sigma : D F) : res (list C) :=
  let N := 2 ^ h in
  let tree_off := 2 ^ lvl * N in
  match h with
  | O => UB
  | S h' =>
    match h' with
    | O => T <- norm_leaf sigma T (off + tree_off) ;; norm_leaf sigma T (off + tree_off + N / 2)
    | S _ =>
      T <- normalize_tree h' (S lvl) T (off + tree_off) sigma ;;
      normalize_tree h' (S lvl) T (off + tree_off + N / 2) sigma
    end
  end.

(** ffsampling.hpp 17-89, ff_sampling<N, AT_LEVEL, T_HEIGHT>: (z0, z1) and the generator position.  The halves of
    z0 and z1 serve as scratch buffers of the recursive calls in C++; here these are returned. *)
Fixpoint ff_sampling (fuel : nat) (h lvl : nat) (t0 t1 : list C) (T : list C) (off : nat) (sigma_min : D F)
    (g : rng_t) (pos : nat) : res (list C * list C * nat) :=
  let N := 2 ^ h in
  let tree_off := 2 ^ lvl * N in
  match h with
  | O =>
    x <- rd T off ;;
    let sigma' := fst x in
    a <- rd t0 0 ;; '(z0, pos) <- samplerz F fuel (fst a) sigma' sigma_min g pos ;;
    b <- rd t1 0 ;; '(z1, pos) <- samplerz F fuel (fst b) sigma' sigma_min g pos ;;
    Ok ([cof F (fofz F z0)], [cof F (fofz F z1)], pos)
  | S h' =>
    l <- rds T off N ;;
    let Tl := off + tree_off in
    let Tr := Tl + N / 2 in
    '(t1_0, t1_1) <- split_fft F ztab h t1 (fresh F (N / 2)) (fresh F (N / 2)) ;;
    '(z0r, z1r, pos) <- ff_sampling fuel h' (S lvl) t1_0 t1_1 T Tr sigma_min g pos ;;
    merged_z1 <- merge_fft F ztab h z0r z1r (fresh F N) ;;
    tmp0 <- cpoly_sub F h t1 merged_z1 (fresh F N) ;;
    tmp1 <- cpoly_mul F h tmp0 l (fresh F N) ;;
    tmp0 <- cpoly_add F h t0 tmp1 tmp0 ;;
    '(t0_0, t0_1) <- split_fft F ztab h tmp0 (fresh F (N / 2)) (fresh F (N / 2)) ;;
    '(z0l, z1l, pos) <- ff_sampling fuel h' (S lvl) t0_0 t0_1 T Tl sigma_min g pos ;;
    merged_z0 <- merge_fft F ztab h z0l z1l (fresh F N) ;;
    Ok (merged_z0, merged_z1, pos)
  end.

(** signing.hpp 82-93: (s0, s1) = (t0 - z0, t1 - z1) * B *)
Definition sign_vector (lg : nat) (B t0 t1 z0 z1 : list C) : res (list C * list C) :=
  let N := 2 ^ lg in
  tz0 <- cpoly_sub F lg t0 z0 (fresh F N) ;;
  tz1 <- cpoly_sub F lg t1 z1 (fresh F N) ;;
  s0 <- mul_at lg tz0 0 B 0 (fresh F N) 0 ;;
  tmp <- mul_at lg tz1 0 B (2 * N) (fresh F N) 0 ;;
  s0 <- cpoly_add_to F lg s0 tmp ;;
  s1 <- mul_at lg tz0 0 B N (fresh F N) 0 ;;
  tmp <- mul_at lg tz1 0 B (3 * N) tmp 0 ;;
  s1 <- cpoly_add_to F lg s1 tmp ;;
  Ok (s0, s1).

(** signing.hpp 104-106 *)
Definition round_poly (lg : nat) (p : list C) (out : list Z) : res (list Z) :=
  forn (2 ^ lg) 0 (fun i v => x <- rd p i ;; y <- to_i32 F (fround F (fst x)) ;; wr v i y) out.

(** signing.hpp 78-114, the while (1) loop *)
Fixpoint sign_loop (fuel sfuel : nat) (lg : nat) (B T t0 t1 : list C) (sigma_min : D F) (beta2 : Z)
    (g : rng_t) (pos : nat) (sig : list Z) : res (list Z * nat) :=
  match fuel with
  | O => Fuel
  | S fuel' =>
    '(z0, z1, pos) <- ff_sampling sfuel lg 0 t0 t1 T 0 sigma_min g pos ;;
    '(s0, s1) <- sign_vector lg B t0 t1 z0 z1 ;;
    n0 <- sqrd_norm_c F lg s0 ;;
    n1 <- sqrd_norm_c F lg s1 ;;
    if fle F (fadd F n0 n1) (fofz F beta2) then
      s1 <- ifft F ztab lg s1 ;;
      s2 <- round_poly lg s1 (repeat 0%Z (2 ^ lg)) ;;
      '(compressed, sig) <- compress_sig lg s2 sig ;;
      if compressed then Ok (sig, pos)
      else sign_loop fuel' sfuel lg B T t0 t1 sigma_min beta2 g pos sig
    else sign_loop fuel' sfuel lg B T t0 t1 sigma_min beta2 g pos sig
  end.

(** signing.hpp 51-67: the target (t0, t1) *)
Definition sign_target (lg : nat) (B : list C) (c : list Z) : res (list C * list C) :=
  let N := 2 ^ lg in
  c_fft <- of_ints F lg c ;;
  c_fft <- fft F ztab lg c_fft ;;
  t0 <- mul_at lg c_fft 0 B (3 * N) (fresh F N) 0 ;;
  t1 <- mul_at lg c_fft 0 B N (fresh F N) 0 ;;
  let q := cof F (fofz F Q) in
  forn N 0 (fun i '(t0, t1) =>
    x <- rd t0 i ;; t0 <- wr t0 i (fcdiv F x q) ;;
    y <- rd t1 i ;; t1 <- wr t1 i (cneg F (fcdiv F y q)) ;; Ok (t0, t1)) (t0, t1).

(** signing.hpp 30-118, sign<N, β2, slen>; the fuel of hash_to_point and of the samplers is sfuel *)
Definition sign_bt (fuel sfuel : nat) (xof : xof_t) (lg : nat) (B T : list C) (msg sig : list Z)
    (g : rng_t) (pos : nat) : res (list Z * nat) :=
  let N := 2 ^ lg in
  let '(salt, pos) := rng_read g pos 40 in
  c <- hash_to_point sfuel xof lg salt msg (repeat 0%Z N) ;;
  '(t0, t1) <- sign_target lg B c ;;
  '(sig, pos) <- sign_loop fuel sfuel lg B T t0 t1 (sigma_min F lg) (beta2_values lg) g pos sig ;;
  sig <- wr sig 0 (Z.lor 48 (Z.of_nat lg)) ;;
  sig <- wrs sig 1 salt ;;
  Ok (sig, pos).

(** falcon.hpp 53-90, recompute_G<N> *)
Definition recompute_G (lg : nat) (f g F_ : list Z) (G_ : list Z) : res (list Z) :=
  let N := 2 ^ lg in
  f_ <- of_ints F lg f ;;
  g_ <- of_ints F lg g ;;
  Fc <- of_ints F lg F_ ;;
  let q := repeat (cof F (fofz F Q)) N in
  f_ <- fft F ztab lg f_ ;;
  g_ <- fft F ztab lg g_ ;;
  Fc <- fft F ztab lg Fc ;;
  tmp <- cpoly_mul F lg g_ Fc (fresh F N) ;;
  tmp <- cpoly_add_to F lg tmp q ;;
  Gc <- cpoly_div F lg tmp f_ (fresh F N) ;;
  Gc <- ifft F ztab lg Gc ;;
  round_poly lg Gc G_.

(** falcon.hpp 94-114, compute_matrix_B<N> (the same statements are keygen.hpp 116-126) *)
Definition compute_matrix_B (lg : nat) (f g F_ G_ : list Z) : res (list C) :=
  let N := 2 ^ lg in
  b0 <- of_ints F lg g ;; b1 <- of_ints_neg F lg f ;; b2 <- of_ints F lg G_ ;; b3 <- of_ints_neg F lg F_ ;;
  B <- wrs (fresh F (4 * N)) 0 b0 ;; B <- wrs B N b1 ;; B <- wrs B (2 * N) b2 ;; B <- wrs B (3 * N) b3 ;;
  B <- at_sub (fft F ztab lg) B 0 N ;;
  B <- at_sub (fft F ztab lg) B N N ;;
  B <- at_sub (fft F ztab lg) B (2 * N) N ;;
  at_sub (fft F ztab lg) B (3 * N) N.

(** falcon.hpp 129-130; also the sigma passed to keygen by the callers *)
Definition sigma_value (lg : nat) : D F := if Nat.eqb lg 10 then flit F 168388571447 9 else flit F 165736617183 9.

(** falcon.hpp 120-137, compute_falcon_tree<N>; T is the caller's array *)
Definition compute_falcon_tree (lg : nat) (B T : list C) : res (list C) :=
  gram <- compute_gram_matrix lg B (fresh F (2 * 2 * 2 ^ lg)) ;;
  T <- ffldl lg 0 gram T 0 ;;
  normalize_tree lg 0 T 0 (sigma_value lg).

(** falcon.hpp 189-216, sign<N> on a byte-encoded secret key; T has (log2 N + 1) * N cells.  The generator is a fresh
    prng_t, read from position 0. *)
Definition sign (fuel sfuel : nat) (xof : xof_t) (lg : nat) (skey msg sig : list Z) (rng : rng_t) : res (bool * list Z) :=
  let N := 2 ^ lg in
  '(decoded, (f, g, F_)) <- decode_skey lg skey (repeat 0%Z N) (repeat 0%Z N) (repeat 0%Z N) ;;
  if negb decoded then Ok (false, sig)
  else
    G_ <- recompute_G lg f g F_ (repeat 0%Z N) ;;
    B <- compute_matrix_B lg f g F_ G_ ;;
    T <- compute_falcon_tree lg B (fresh F (N * (lg + 1))) ;;
    '(sig, _) <- sign_bt fuel sfuel xof lg B T msg sig rng 0 ;;
    Ok (true, sig).

(** falcon.hpp 28-44, keygen<N> producing bytes; pkey and skey are the caller's buffers *)
Definition keygen_bytes (fuel sfuel : nat) (lg : nat) (pkey skey : list Z) (rng : rng_t) : res (list Z * list Z) :=
  let N := 2 ^ lg in
  '(f, g, F_, _, _) <- ntru_gen F ztab fuel sfuel lg rng 0 (repeat 0%Z N) (repeat 0%Z N) (repeat 0%Z N) (repeat 0%Z N) ;;
  h <- compute_public_key lg f g (repeat 0%Z N) ;;
  pkey <- encode_pkey lg h pkey ;;
  skey <- encode_skey lg f g F_ skey ;;
  Ok (pkey, skey).

(** keygen.hpp 100-135, keygen<N>: B, T, h *)
Definition keygen_tree (fuel sfuel : nat) (lg : nat) (sigma : D F) (rng : rng_t) (pos : nat) (T : list C)
    : res (list C * list C * list Z * nat) :=
  let N := 2 ^ lg in
  '(f, g, F_, G_, pos) <- ntru_gen F ztab fuel sfuel lg rng pos (repeat 0%Z N) (repeat 0%Z N) (repeat 0%Z N) (repeat 0%Z N) ;;
  B <- compute_matrix_B lg f g F_ G_ ;;
  gram <- compute_gram_matrix lg B (fresh F (2 * 2 * N)) ;;
  T <- ffldl lg 0 gram T 0 ;;
  T <- normalize_tree lg 0 T 0 sigma ;;
  h <- compute_public_key lg f g (repeat 0%Z N) ;;
  Ok (B, T, h, pos).
End Tree.
