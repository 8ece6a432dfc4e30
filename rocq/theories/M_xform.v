(** M_xform.v -- the loop nests shared by ntt/intt (ntt.hpp) and fft/ifft (fft.hpp).

    The C++ text of ntt.hpp 127-149 and fft.hpp 1097-1114 is the same loop nest over two element types
    (likewise ntt.hpp 168-199 and fft.hpp 1134-1156), so it is modelled once,
    parametric in the element operations used by the butterfly.

    [for (start = 0; start < N; start += lenx2)] is written as a loop over block numbers b with
    start = b * lenx2; the block count is N / lenx2. Everything else is literal. *)
From Verif Require Import Base.
Open Scope nat_scope.

Section Xform.
Variable T : Type.
(** tmp = mulz zeta x; vec[i+len] = subt vec[i] tmp; vec[i] = addt vec[i] tmp *)
Variables (mulz subt addt : T -> T -> T).
(** table of powers of zeta *)
Variable ztab : list T.

(** inner loop body, ntt.hpp 142-147 / fft.hpp 1107-1112 *)
Definition ct_butterfly (z : T) (len i : nat) (vec : list T) : res (list T) :=
  x <- rd vec (i + len) ;;
  let tmp := mulz z x in
  y <- rd vec i ;;
  vec <- wr vec (i + len) (subt y tmp) ;;
  y <- rd vec i ;;
  wr vec i (addt y tmp).

(** one block, ntt.hpp 132-148 / fft.hpp 1102-1113 *)
Definition ct_block (lg l : nat) (b : nat) (vec : list T) : res (list T) :=
  let len := 2 ^ l in
  let start := b * (2 * len) in
  let k_beg := (2 ^ lg) / 2 ^ (l + 1) in
  let k_now := k_beg + start / 2 ^ (l + 1) in
  z <- rd ztab k_now ;;
  forn len start (fun i v => ct_butterfly z len i v) vec.

(** one layer l *)
Definition ct_layer (lg l : nat) (vec : list T) : res (list T) :=
  forn (2 ^ lg / (2 * 2 ^ l)) 0 (fun b v => ct_block lg l b v) vec.

(** for (l = LOG2N-1; l >= 0; l--), ntt.hpp 127 / fft.hpp 1097 *)
Definition ct (lg : nat) (vec : list T) : res (list T) :=
  forn lg 0 (fun j v => ct_layer lg (lg - 1 - j) v) vec.

(** Inverse: tmp = vec[i]; vec[i] = addi vec[i] vec[i+len]; vec[i+len] = subi tmp vec[i+len];
    vec[i+len] = muli vec[i+len] negz;  ntt.hpp 183-189 / fft.hpp 1144-1150 *)
Variables (addi subi muli : T -> T -> T).
(** table lookup of the negated power *)
Variable nztab : list T.

Definition gs_butterfly (z : T) (len i : nat) (vec : list T) : res (list T) :=
  tmp <- rd vec i ;;
  y <- rd vec (i + len) ;;
  vec <- wr vec i (addi tmp y) ;;
  y <- rd vec (i + len) ;;
  vec <- wr vec (i + len) (subi tmp y) ;;
  y <- rd vec (i + len) ;;
  wr vec (i + len) (muli y z).

(** ntt.hpp 173-190 / fft.hpp 1139-1151 *)
Definition gs_block (lg l : nat) (b : nat) (vec : list T) : res (list T) :=
  let len := 2 ^ l in
  let start := b * (2 * len) in
  let k_beg := 2 ^ lg / 2 ^ l - 1 in
  let k_now := k_beg - start / 2 ^ (l + 1) in
  z <- rd nztab k_now ;;
  forn len start (fun i v => gs_butterfly z len i v) vec.

Definition gs_layer (lg l : nat) (vec : list T) : res (list T) :=
  forn (2 ^ lg / (2 * 2 ^ l)) 0 (fun b v => gs_block lg l b v) vec.

(** final scaling loop: vec[i] = scal vec[i]; ntt.hpp 193-199 / fft.hpp 1154-1156 *)
Variable scal : T -> T.
Definition scale (n : nat) (vec : list T) : res (list T) :=
  forn n 0 (fun i v => x <- rd v i ;; wr v i (scal x)) vec.

Definition gs (lg : nat) (vec : list T) : res (list T) :=
  vec <- forn lg 0 (fun l v => gs_layer lg l v) vec ;;
  scale (2 ^ lg) vec.

End Xform.

(** Element-wise loops of polynomial.hpp (c[i] = op a[i] b[i]); used for the mul/add/sub/div variants. *)
Definition zipw {A B C} (op : A -> B -> res C) (n : nat) (a : list A) (b : list B) (c : list C) : res (list C) :=
  forn n 0 (fun i v => x <- rd a i ;; y <- rd b i ;; r <- op x y ;; wr v i r) c.
(** in-place unary loop *)
Definition mapw {A} (op : A -> A) (n : nat) (a : list A) : res (list A) :=
  forn n 0 (fun i v => x <- rd v i ;; wr v i (op x)) a.
