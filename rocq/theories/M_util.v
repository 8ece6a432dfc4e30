(** M_util.v -- model of common.hpp (hex helpers) and of the constructor of prng_t (prng.hpp).

    A character is its ASCII code; a std::string is the list of its characters. *)
From Verif Require Import Base M_sig M_verify M_samp M_float M_fft M_ntru M_tree.
Open Scope Z_scope.

(** ** common.hpp 11-21: to_hex *)
(** digits of std::hex (lower case) *)
Definition hexchar (d : Z) : Z := if d <? 10 then 48 + d else 87 + d.
(** operator<<(uint32_t) under std::hex: no leading zeros; 8 digits suffice for 32 bits *)
Fixpoint hex_digits (fuel : nat) (n : Z) : list Z :=
  match fuel with
  | O => []
  | S k => if n <? 16 then [hexchar n] else hex_digits k (n / 16) ++ [hexchar (n mod 16)]
  end.
(** std::setw(2) << std::setfill('0'): padding on the left *)
Definition pad2 (s : list Z) : list Z := repeat 48 (2 - length s) ++ s.
(** common.hpp 17-19 *)
Definition to_hex (bytes : list Z) : list Z := flat_map (fun b => pad2 (hex_digits 8 (u32 b))) bytes.

(** ** common.hpp 25-40: to_byte_array *)
Definition is_space (c : Z) : bool := (c =? 32) || ((9 <=? c) && (c <=? 13)).
Definition hexval (c : Z) : option Z :=
  if (48 <=? c) && (c <=? 57) then Some (c - 48)
  else if (97 <=? c) && (c <=? 102) then Some (c - 87)
  else if (65 <=? c) && (c <=? 70) then Some (c - 55) else None.
Fixpoint skip_space (s : list Z) : list Z := match s with c :: s' => if is_space c then skip_space s' else s | [] => [] end.
Fixpoint parse_hex (s : list Z) (acc : Z) : Z :=
  match s with c :: s' => match hexval c with Some d => parse_hex s' (16 * acc + d) | None => acc end | [] => acc end.
(** the optional prefix 0x, which counts only if a digit follows *)
Definition skip_0x (s : list Z) : list Z :=
  match s with
  | a :: x :: d :: s' => if (a =? 48) && ((x =? 120) || (x =? 88)) && (match hexval d with Some _ => true | None => false end) then d :: s' else s
  | _ => s
  end.
(** strtol(s, nullptr, 16) (C standard 7.22.1.4): space, sign, prefix, digits up to the first other character; the
    strings here have at most two characters, so no overflow. *)
Definition strtol16 (s : list Z) : Z :=
  match skip_space s with
  | c :: s' => if c =? 45 then - parse_hex (skip_0x s') 0 else if c =? 43 then parse_hex (skip_0x s') 0 else parse_hex (skip_0x (c :: s')) 0
  | [] => 0
  end.
(** common.hpp 31-39 *)
Definition to_byte_array (s bytes : list Z) : res (list Z) :=
  forn (length s / 2) 0 (fun i bytes => wr bytes i (u8 (strtol16 (firstn 2 (skipn (i * 2) s))))) bytes.

(** ** prng.hpp 23-35: the constructor of prng_t
    rd is the value of std::random_device::operator(), an unsigned int, so in [0, 2^32); draw v i is the i-th value of
    uniform_int_distribution<uint8_t> over mt19937 seeded with v (any function: the distribution's algorithm is
    implementation defined); xof is SHAKE256. *)
Section Prng.
Variable draw : Z -> nat -> Z.
Variable xof : xof_t.
(** prng.hpp 28-31 *)
Definition prng_seed (rd : Z) : list Z := map (fun i => u8 (draw rd i)) (seq 0 32).
(** prng.hpp 33 *)
Definition prng_init (rd : Z) : rng_t := xof (prng_seed rd).
Variable F : fops.
Variable ztab : list (D F * D F).
(** falcon.hpp 28-44 with its own generator (line 38) *)
Definition keygen_run (fuel sfuel lg : nat) (pkey skey : list Z) (rd : Z) : res (list Z * list Z) :=
  keygen_bytes F ztab fuel sfuel lg pkey skey (prng_init rd).
(** falcon.hpp 189-216 with its own generator (line 203) *)
Definition sign_run (fuel sfuel lg : nat) (skey msg sig : list Z) (rd : Z) : res (bool * list Z) :=
  sign F ztab fuel sfuel xof lg skey msg sig (prng_init rd).
End Prng.
