(** Spec.v -- independent specification vocabulary.

    Nothing in this file refers to the model of the C++ code.  The theorems (files T_*.v)
    relate the model functions to these definitions only. *)
From Verif Require Import Base.
Open Scope Z_scope.

(** The Falcon modulus. *)
Definition q : Z := 12289.

Definition canon (v : Z) : Prop := 0 <= v < q.
Definition lt14 (v : Z) : Prop := 0 <= v < 2 ^ 14.

(** Finite sums of integers. *)
Fixpoint zsum (n : nat) (f : nat -> Z) : Z :=
  match n with O => 0 | S n' => zsum n' f + f n' end.

(** Coefficient k of the product of two polynomials (coefficient lists a and b of length n)
    in Z[x]/(x^n+1):  sum_{i+j=k} a_i b_j - sum_{i+j=k+n} a_i b_j. *)
Definition negacyclic (n : nat) (a b : list Z) : list Z :=
  tab n (fun k =>
    zsum n (fun i => nth i a 0 *
      (if Nat.leb i k then nth (k - i) b 0 else - nth (n + k - i) b 0))).

(** Reduction of a coefficient list mod q. *)
Definition modq (a : list Z) : list Z := map (fun x => x mod q) a.

(** Reversal of the low w bits of v. *)
Fixpoint brv (w : nat) (v : nat) : nat :=
  match w with
  | O => O
  | S w' => ((v mod 2) * 2 ^ w' + brv w' (v / 2))%nat
  end.

(** Value of the polynomial a at the point x, mod q. *)
Definition evalq (n : nat) (a : list Z) (x : Z) : Z := (zsum n (fun j => nth j a 0 * x ^ Z.of_nat j)) mod q.

(** Squared euclidean norm. *)
Definition sqnorm (a : list Z) : Z := fold_right (fun x s => x * x + s) 0 a.

(** The two Falcon parameter sets: N = 2^9 = 512 and N = 2^10 = 1024. *)
Definition falcon_lg (lg : nat) : Prop := lg = 9%nat \/ lg = 10%nat.

(** A primitive 2N-th root of unity mod q, and the N odd powers of it, in bit-reversed order. *)
Definition root (lg : nat) : Z := if Nat.eqb lg 9 then 49 else 7.
Definition point (lg i : nat) : Z := root lg ^ Z.of_nat (2 * brv lg i + 1).

(** The constant polynomial 1. *)
Definition onep (n : nat) : list Z := tab n (fun k => if Nat.eqb k 0 then 1 else 0).

(** Absolute value below q. *)
Definition smallq (x : Z) : Prop := - q < x < q.

(** Little-endian value of a digit list in base B. *)
Definition le_value (B : Z) (l : list Z) : Z := fold_right (fun d v => d + B * v) 0 l.

(** Big-endian value of a digit list in base B (first digit most significant). *)
Definition be_value (B : Z) (l : list Z) : Z := fold_left (fun v d => v * B + d) l 0.

(** x is representable in two's complement modulo w (w even). *)
Definition fits (w x : Z) : Prop := - (w / 2) <= x < w / 2.

(** Coefficients of f and g are stored modulo 64 (N = 512) or 32 (N = 1024), those of F modulo 256. *)
Definition skey_modulus (lg : nat) : Z := if Nat.eqb lg 9 then 64 else 32.

(** ** Bit strings (most significant bit of each byte first) *)
Definition byte_bits (b : Z) : list bool := map (fun j => Z.testbit b (Z.of_nat (7 - j))) (seq 0 8).
Definition bits_of (l : list Z) : list bool := flat_map byte_bits l.
(** value of a bit string, first bit most significant *)
Definition bv (l : list bool) : Z := fold_left (fun v (b : bool) => 2 * v + (if b then 1 else 0)) l 0.
Definition signed (sgn : bool) (v : Z) : Z := if sgn then - v else v.

(** Falcon specification, algorithm 17: sign, seven low bits, unary high part. *)
Definition low7 (a : Z) : list bool := map (fun j => Z.testbit a (Z.of_nat (6 - j))) (seq 0 7).
Definition enc (s : Z) : list bool :=
  (s <? 0) :: low7 (Z.abs s) ++ repeat false (Z.to_nat (Z.abs s / 128)) ++ [true].
Definition enc_len (s : Z) : Z := 9 + Z.abs s / 128.
(** number of bits of the encoding of a whole vector *)
Definition tot (l : list Z) : Z := fold_right (fun s t => enc_len s + t) 0 l.
Definition encs (l : list Z) : list bool := flat_map enc l.

(** The language accepted by decompress_sig, one codeword per coefficient.  [cw_short] is the image of
    [enc] for |s| < 1024; [cw_long] is what the branch for 8 or more zeros really accepts. *)
Inductive codeword : list bool -> Z -> Prop :=
| cw_short : forall sgn low k, length low = 7%nat -> (k < 8)%nat ->
    ~ (sgn = true /\ bv low + 128 * Z.of_nat k = 0) ->
    codeword (sgn :: low ++ repeat false k ++ [true]) (signed sgn (bv low + 128 * Z.of_nat k))
| cw_long : forall sgn low m chunk b, length low = 7%nat -> length chunk = 8%nat -> In true chunk ->
    ~ (sgn = true /\ bv low = 0) ->
    codeword (sgn :: low ++ repeat false (8 + 8 * m) ++ chunk ++ [b]) (signed sgn (bv low)).
Definition short_codeword (w : list bool) (s : Z) : Prop := codeword w s /\ (length w <= 16)%nat.

(** Signature length in bytes: 1 header byte, 40 salt bytes, body. *)
Definition sig_bytes (lg : nat) : nat := if Nat.eqb lg 9 then 666%nat else 1280%nat.
(** bits of the signature body, header and salt skipped *)
Definition body_bits (lg : nat) (mem : list Z) : list bool := bits_of (firstn (sig_bytes lg - 41) (skipn 41 mem)).
(** number of body bits *)
Definition body_len (lg : nat) : Z := 8 * Z.of_nat (sig_bytes lg) - 328.
(** The body is a sequence of codewords denoting s, then one or more zero bits. *)
Definition accepts (lg : nat) (mem s : list Z) : Prop :=
  length s = (2 ^ lg)%nat /\ exists ws z, Forall2 codeword ws s /\ (1 <= z)%nat /\
    body_bits lg mem = concat ws ++ repeat false z.


(** Acceptance bound on the squared norm of (s1, s2). *)
Definition beta2 (lg : nat) : Z := if Nat.eqb lg 9 then 34034726 else 70265242.

(** ** Hash to point (Falcon specification, algorithm 3) *)
(** j-th big-endian 16-bit word of a byte stream *)
Definition word16 (stream : nat -> Z) (j : nat) : Z := 256 * stream (2 * j)%nat + stream (2 * j + 1)%nat.
(** the words below 5q among the first n *)
Definition accepted_words (stream : nat -> Z) (n : nat) : list Z :=
  filter (fun w => w <? 61445) (map (word16 stream) (seq 0 n)).

(** ** Verification *)
(** s1 = c - s2 h in Z_q[x]/(x^N+1), canonical representatives *)
Definition s1_residues (lg : nat) (c s2 h : list Z) : list Z :=
  tab (2 ^ lg) (fun i => (nth i c 0 - nth i (negacyclic (2 ^ lg) s2 h) 0) mod q).
(** representative used by this code (least absolute value except for 6144) *)
Definition lift (v : Z) : Z := if v <? 6144 then v else v - q.
(** squared norm computed by verification *)
Definition vnorm (lg : nat) (c s2 h : list Z) : Z := sqnorm s2 + sqnorm (map lift (s1_residues lg c s2 h)).
(** representative of least absolute value *)
Definition lift0 (v : Z) : Z := if v <=? 6144 then v else v - q.
Definition vnorm0 (lg : nat) (c s2 h : list Z) : Z := sqnorm s2 + sqnorm (map lift0 (s1_residues lg c s2 h)).
(** an infinite stream of bytes *)
Definition byte_stream (s : nat -> Z) : Prop := forall i, 0 <= s i < 256.
(** c is the point to which a stream hashes: the first N accepted words, reduced mod q; nothing is said
    about how many words are read *)
Definition hashed (stream : nat -> Z) (lg : nat) (c : list Z) : Prop :=
  exists m, (2 ^ lg <= length (accepted_words stream m))%nat /\ c = modq (firstn (2 ^ lg) (accepted_words stream m)).

(** ** Integer polynomials of length n *)
Definition padd (n : nat) (a b : list Z) : list Z := tab n (fun i => nth i a 0 + nth i b 0).
Definition psub (n : nat) (a b : list Z) : list Z := tab n (fun i => nth i a 0 - nth i b 0).
(** the NTRU equation f G - g F = q *)
Definition ntru (n : nat) (f g F G : list Z) : Prop :=
  forall k, (k < n)%nat -> nth k (negacyclic n f G) 0 - nth k (negacyclic n g F) 0 = if Nat.eqb k 0 then q else 0.

(** ** Sampling *)
(** 72-bit value of two limbs *)
Definition val72 (h l : Z) : Z := h * 2 ^ 64 + l.
(** Falcon specification, table 3.1: probabilities scaled by 2^72 *)
Definition pdt : list Z :=
  [ 1697680241746640300030; 1459943456642912959616; 928488355018011056515; 436693944817054414619; 151893140790369201013;
    39071441848292237840; 7432604049020375675; 1045641569992574730; 108788995549429682; 8370422445201343; 476288472308334;
    20042553305308; 623729532807; 14354889437; 244322621; 3075302; 28626; 197; 1 ].
(** mass of the values above i *)
Definition tail_mass (i : nat) : Z := fold_right Z.add 0 (skipn (S i) pdt).
(** n bytes of a stream from position pos *)
Definition bytes_at (g : nat -> Z) (pos n : nat) : list Z := map (fun i => g (pos + i)%nat) (seq 0 n).
(** comparing the bytes of x with those of the 64-bit t from the top, n bytes decide: the first n-1 agree,
    and either the n-th differs or all eight have been read *)
Definition decided_by (g : nat -> Z) (pos : nat) (t : Z) (n : nat) : Prop :=
  (1 <= n <= 8)%nat /\
  (forall m, (m < n)%nat -> be_value 256 (bytes_at g pos m) = t / 256 ^ Z.of_nat (8 - m)) /\
  (n = 8%nat \/ be_value 256 (bytes_at g pos n) <> t / 256 ^ Z.of_nat (8 - n)).
(** one proposal: nine bytes choose z0 by the table, the next byte's low bit the sign b *)
Definition proposal (g : nat -> Z) (pos : nat) (z0 : nat) (b : Z) : Prop :=
  (z0 < 19)%nat /\ tail_mass z0 <= le_value 256 (bytes_at g pos 9) < tail_mass z0 + nth z0 pdt 0 /\ b = g (pos + 9)%nat mod 2.
Definition zsigned (z0 : nat) (b : Z) : Z := if b =? 1 then 1 + Z.of_nat z0 else - Z.of_nat z0.
(** rejection sampling: proposals are drawn until one is accepted; thr z0 b t means that t/2^64 is the
    acceptance probability of the proposal (z0, b).  attempts, start, accepted value, end. *)
Inductive rejection (thr : nat -> Z -> Z -> Prop) (g : nat -> Z) : nat -> nat -> Z -> nat -> Prop :=
| rej_accept pos z0 b t n : proposal g pos z0 b -> thr z0 b t ->
    be_value 256 (bytes_at g (pos + 10) 8) < t -> decided_by g (pos + 10) t n -> rejection thr g 1 pos (zsigned z0 b) (pos + 10 + n)
| rej_again pos z0 b t n k z pos' : proposal g pos z0 b -> thr z0 b t ->
    t <= be_value 256 (bytes_at g (pos + 10) 8) -> decided_by g (pos + 10) t n ->
    rejection thr g k (pos + 10 + n) z pos' -> rejection thr g (S k) pos z pos'.

(** ** NTRU *)
(** Coefficient k of the product of two polynomials of Z[x] with n coefficients each. *)
Definition prodcoef (n : nat) (a b : list Z) (k : nat) : Z :=
  zsum n (fun i => zsum n (fun j => if Nat.eqb (i + j) k then nth i a 0 * nth j b 0 else 0)).

(** f(-x) and f(x^2), on coefficient lists. *)
Definition at_minus_x (n : nat) (f : list Z) : list Z :=
  tab n (fun k => if Nat.even k then nth k f 0 else - nth k f 0).
Definition at_x_squared (n : nat) (f : list Z) : list Z :=
  tab (2 * n) (fun k => if Nat.even k then nth (k / 2) f 0 else 0).

(** The norm of f from Z[x]/(x^(2^lg)+1) down to Z: f(x) f(-x) is a polynomial in x^2; iterate. *)
Fixpoint norm_to_Z (lg : nat) (f : list Z) : Z :=
  match lg with
  | O => nth 0 f 0
  | S lg' => norm_to_Z lg' (tab (2 ^ lg') (fun i => nth (2 * i) (negacyclic (2 ^ lg) f (at_minus_x (2 ^ lg) f)) 0))
  end.
