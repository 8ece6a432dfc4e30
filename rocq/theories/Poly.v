(** Poly.v -- R[x]/(x^n+1) over a commutative ring R as a ring of coefficient vectors of length n,
    so that the ring tactic applies; even/odd decomposition, lifting x -> x^2 and conjugation x -> -x. *)
From Verif Require Import Base Ring.
From Coq Require Import Ring_theory Ring Eqdep_dec.
Open Scope nat_scope.

(** identities of commutative rings used below and in the NTRU proofs *)
Section Alg.
Variable R : Type.
Variables (rO rI : R) (radd rmul rsub : R -> R -> R) (ropp : R -> R).
Variable Rth : ring_theory rO rI radd rmul rsub ropp eq.
Add Ring RA : Rth.
Infix "+!" := radd (at level 50, left associativity).
Infix "*!" := rmul (at level 40, left associativity).
Infix "-!" := rsub (at level 50, left associativity).
Lemma alg_norm e o x : e *! e -! x *! x *! (o *! o) = (e +! x *! o) *! (e -! x *! o).
Proof. ring. Qed.
Lemma alg_solve f fc g gc F G : f *! (G *! fc) -! g *! (F *! gc) = (f *! fc) *! G -! (g *! gc) *! F.
Proof. ring. Qed.
Lemma alg_reduce f g F G k c : f *! (G -! c *! (g *! k)) -! g *! (F -! c *! (f *! k)) = f *! G -! g *! F.
Proof. ring. Qed.
End Alg.

Section Poly.
Variable R : Type.
Variables (rO rI : R) (radd rmul rsub : R -> R -> R) (ropp : R -> R).
Variable Rth : ring_theory rO rI radd rmul rsub ropp eq.
Add Ring RR : Rth.
Infix "+!" := radd (at level 50, left associativity).
Infix "*!" := rmul (at level 40, left associativity).
Infix "-!" := rsub (at level 50, left associativity).
Notation nc := (nconv R rO radd rmul ropp).
Notation shf := (sh R ropp).
Notation one := (one_p R rO rI).
Notation rsm := (rsum R rO radd).

Record pv (n : nat) : Type := mkpv { pl : list R; pok : (length pl =? n) = true }.
Arguments pl {n}. Arguments mkpv {n}.

Lemma pl_length n (p : pv n) : length (pl p) = n.
Proof. destruct p as [l H]; simpl. apply Nat.eqb_eq; exact H. Qed.

Definition pc {n} (p : pv n) (k : nat) : R := nth k (pl p) rO.

Lemma mkp_ok n (f : nat -> R) : (length (tab n f) =? n) = true.
Proof. rewrite tab_length. apply Nat.eqb_refl. Qed.
Definition mkp (n : nat) (f : nat -> R) : pv n := mkpv (tab n f) (mkp_ok n f).

Lemma pc_mkp n f k : k < n -> pc (mkp n f) k = f k.
Proof. intros H; unfold pc; simpl. apply nth_tab; exact H. Qed.

Lemma pl_ext n (p p' : pv n) : pl p = pl p' -> p = p'.
Proof.
  destruct p as [l H], p' as [l' H']; simpl. intros <-. f_equal. apply UIP_dec. decide equality.
Qed.

Lemma pv_ext n (p p' : pv n) : (forall k, k < n -> pc p k = pc p' k) -> p = p'.
Proof.
  intros H. apply pl_ext. apply (list_ext rO); [rewrite !pl_length; reflexivity|].
  rewrite pl_length. exact H.
Qed.

Lemma mkp_pc n (p : pv n) : mkp n (pc p) = p.
Proof. apply pv_ext; intros k Hk; apply pc_mkp; exact Hk. Qed.

Definition ofl (n : nat) (l : list R) : pv n := mkp n (fun k => nth k l rO).
Lemma pc_ofl n l k : k < n -> pc (ofl n l) k = nth k l rO.
Proof. apply pc_mkp. Qed.
Lemma pl_ofl n l : length l = n -> pl (ofl n l) = l.
Proof. intros <-. unfold ofl; simpl. apply tab_nth. Qed.
Lemma ofl_pl n (p : pv n) : ofl n (pl p) = p.
Proof. apply mkp_pc. Qed.

Definition padd {n} (a b : pv n) : pv n := mkp n (fun k => pc a k +! pc b k).
Definition psub {n} (a b : pv n) : pv n := mkp n (fun k => pc a k -! pc b k).
Definition popp {n} (a : pv n) : pv n := mkp n (fun k => ropp (pc a k)).
Definition pmul {n} (a b : pv n) : pv n := mkp n (fun k => nc n (pc a) (pc b) k).
Definition p0 {n} : pv n := mkp n (fun _ => rO).
Definition p1 {n} : pv n := mkp n one.
Definition pcst {n} (c : R) : pv n := mkp n (fun k => if k =? 0 then c else rO).

Lemma pc_add n (a b : pv n) k : k < n -> pc (padd a b) k = pc a k +! pc b k.
Proof. apply pc_mkp. Qed.
Lemma pc_sub n (a b : pv n) k : k < n -> pc (psub a b) k = pc a k -! pc b k.
Proof. apply pc_mkp. Qed.
Lemma pc_opp n (a : pv n) k : k < n -> pc (popp a) k = ropp (pc a k).
Proof. apply pc_mkp. Qed.
Lemma pc_mul n (a b : pv n) k : k < n -> pc (pmul a b) k = nc n (pc a) (pc b) k.
Proof. apply pc_mkp. Qed.

Lemma pring n : @ring_theory (pv n) p0 p1 padd pmul psub popp eq.
Proof.
  constructor; intros.
  - apply pv_ext; intros k Hk. rewrite pc_add by exact Hk. unfold p0. rewrite pc_mkp by exact Hk. ring.
  - apply pv_ext; intros k Hk. rewrite !pc_add by exact Hk. ring.
  - apply pv_ext; intros k Hk. rewrite !pc_add by exact Hk. ring.
  - apply pv_ext; intros k Hk. rewrite pc_mul by exact Hk.
    rewrite (nconv_ext _ _ _ _ _ n _ one _ (pc x) k Hk); [|intros j Hj; apply pc_mkp; exact Hj|reflexivity].
    apply (nconv_1_l _ _ _ _ _ _ _ Rth); exact Hk.
  - apply pv_ext; intros k Hk. rewrite !pc_mul by exact Hk. apply (nconv_comm _ _ _ _ _ _ _ Rth); exact Hk.
  - apply pv_ext; intros k Hk. rewrite !pc_mul by exact Hk.
    transitivity (nc n (pc x) (fun j => nc n (pc y) (pc z) j) k).
    { apply nconv_ext; [exact Hk|reflexivity|intros j Hj; apply pc_mul; exact Hj]. }
    transitivity (nc n (fun j => nc n (pc x) (pc y) j) (pc z) k).
    { apply (nconv_assoc _ _ _ _ _ _ _ Rth); exact Hk. }
    symmetry. apply nconv_ext; [exact Hk|intros j Hj; apply pc_mul; exact Hj|reflexivity].
  - apply pv_ext; intros k Hk. rewrite pc_add, !pc_mul by exact Hk.
    rewrite (nconv_ext _ _ _ _ _ n _ (fun j => pc x j +! pc y j) _ (pc z) k Hk); [|intros j Hj; apply pc_add; exact Hj|reflexivity].
    apply (nconv_add_l _ _ _ _ _ _ _ Rth).
  - apply pv_ext; intros k Hk. rewrite pc_sub, pc_add, pc_opp by exact Hk. ring.
  - apply pv_ext; intros k Hk. rewrite pc_add, pc_opp by exact Hk. unfold p0; rewrite pc_mkp by exact Hk. ring.
Qed.

(** The monomial x. *)
Definition px {n} : pv n := mkp n (fun k => shf n 1 one k).

Lemma pc_px_mul n (a : pv n) k : 1 <= n -> k < n -> pc (pmul px a) k = shf n 1 (pc a) k.
Proof.
  intros Hn Hk. rewrite pc_mul by exact Hk.
  rewrite (nconv_ext _ _ _ _ _ n _ (fun j => shf n 1 one j) _ (pc a) k Hk); [|intros j Hj; apply pc_mkp; exact Hj|reflexivity].
  rewrite <- (sh_nconv _ _ _ _ _ _ _ Rth) by lia.
  apply (sh_ext R ropp); [lia|lia|]. intros j Hj. apply (nconv_1_l _ _ _ _ _ _ _ Rth); exact Hj.
Qed.

(** x -> x^2: the lift from degree n to degree 2n. *)
Definition plift {n} (a : pv n) : pv (2 * n) := mkp (2 * n) (fun k => if Nat.even k then pc a (k / 2) else rO).
Definition pev {n} (a : pv (2 * n)) : pv n := mkp n (fun k => pc a (2 * k)).
Definition pod {n} (a : pv (2 * n)) : pv n := mkp n (fun k => pc a (2 * k + 1)).
(** x -> -x *)
Definition pconj {n} (a : pv n) : pv n := mkp n (fun k => if Nat.even k then pc a k else ropp (pc a k)).

Lemma evenb2 i : Nat.even (2 * i) = true.
Proof. rewrite Nat.even_mul; reflexivity. Qed.
Lemma evenb21 i : Nat.even (2 * i + 1) = false.
Proof. rewrite Nat.even_add, evenb2; reflexivity. Qed.
Lemma half2 i : 2 * i / 2 = i.
Proof. rewrite Nat.mul_comm; apply Nat.div_mul; lia. Qed.
Lemma half21 i : (2 * i + 1) / 2 = i.
Proof. replace (2 * i + 1) with (1 + i * 2) by lia. rewrite Nat.div_add by lia. reflexivity. Qed.
Lemma parity_case k : exists i, k = 2 * i \/ k = 2 * i + 1.
Proof. exists (k / 2). pose proof (Nat.div_mod k 2). pose proof (Nat.mod_upper_bound k 2). lia. Qed.

Lemma pc_lift_even n (a : pv n) i : i < n -> pc (plift a) (2 * i) = pc a i.
Proof. intros H; unfold plift; rewrite pc_mkp by lia. rewrite evenb2, half2; reflexivity. Qed.
Lemma pc_lift_odd n (a : pv n) i : i < n -> pc (plift a) (2 * i + 1) = rO.
Proof. intros H; unfold plift; rewrite pc_mkp by lia. rewrite evenb21; reflexivity. Qed.

Ltac par k Hk := destruct (parity_case k) as [? [-> | ->]].

Lemma plift_add n (a b : pv n) : plift (padd a b) = padd (plift a) (plift b).
Proof.
  apply pv_ext; intros k Hk. par k Hk; rewrite pc_add by lia.
  - rewrite !pc_lift_even, pc_add by lia; reflexivity.
  - rewrite !pc_lift_odd by lia; ring.
Qed.
Lemma plift_sub n (a b : pv n) : plift (psub a b) = psub (plift a) (plift b).
Proof.
  apply pv_ext; intros k Hk. par k Hk; rewrite pc_sub by lia.
  - rewrite !pc_lift_even, pc_sub by lia; reflexivity.
  - rewrite !pc_lift_odd by lia; ring.
Qed.
Lemma plift_cst n c : plift (pcst c : pv n) = pcst c.
Proof.
  apply pv_ext; intros k Hk. par k Hk.
  - rewrite pc_lift_even by lia. unfold pcst; rewrite !pc_mkp by lia. destruct x; reflexivity.
  - rewrite pc_lift_odd by lia. unfold pcst; rewrite pc_mkp by lia. destruct (Nat.eqb_spec (2 * x + 1) 0); [lia|reflexivity].
Qed.

Lemma plift_mul n (a b : pv n) : plift (pmul a b) = pmul (plift a) (plift b).
Proof.
  apply pv_ext; intros k Hk. par k Hk; rewrite pc_mul by lia; unfold nconv;
    rewrite (rsum_parity _ _ _ _ _ _ _ Rth).
  - rewrite pc_lift_even, pc_mul by lia. unfold nconv.
    rewrite (rsum_zero _ _ _ _ _ _ _ Rth n (fun i => pc (plift a) (2 * i + 1) *! _)).
    2: { intros i Hi. rewrite pc_lift_odd by exact Hi. ring. }
    rewrite (rsum_ext _ _ _ n _ (fun i => pc (plift a) (2 * i) *! shf (2 * n) (2 * i) (pc (plift b)) (2 * x))); [ring|].
    intros i Hi. rewrite pc_lift_even by exact Hi. f_equal. unfold sh.
    destruct (Nat.leb_spec i x), (Nat.leb_spec (2 * i) (2 * x)); try lia.
    + replace (2 * x - 2 * i) with (2 * (x - i)) by lia. rewrite pc_lift_even by lia; reflexivity.
    + replace (2 * n + 2 * x - 2 * i) with (2 * (n + x - i)) by lia. rewrite pc_lift_even by lia; reflexivity.
  - rewrite pc_lift_odd by lia.
    rewrite !(rsum_zero _ _ _ _ _ _ _ Rth n); [ring| |]; intros i Hi.
    + rewrite pc_lift_odd by exact Hi. ring.
    + unfold sh. destruct (Nat.leb_spec (2 * i) (2 * x + 1)).
      * replace (2 * x + 1 - 2 * i) with (2 * (x - i) + 1) by lia. rewrite pc_lift_odd by lia; ring.
      * replace (2 * n + (2 * x + 1) - 2 * i) with (2 * (n + x - i) + 1) by lia. rewrite pc_lift_odd by lia; ring.
Qed.

Lemma px_lift_even n (a : pv n) i : i < n -> pc (pmul px (plift a)) (2 * i) = rO.
Proof.
  intros Hi. rewrite pc_px_mul by lia. unfold sh. destruct (Nat.leb_spec 1 (2 * i)).
  - replace (2 * i - 1) with (2 * (i - 1) + 1) by lia. apply pc_lift_odd; lia.
  - replace (2 * n + 2 * i - 1) with (2 * (n - 1) + 1) by lia. rewrite pc_lift_odd by lia. ring.
Qed.
Lemma px_lift_odd n (a : pv n) i : i < n -> pc (pmul px (plift a)) (2 * i + 1) = pc a i.
Proof.
  intros Hi. rewrite pc_px_mul by lia. unfold sh. destruct (Nat.leb_spec 1 (2 * i + 1)); [|lia].
  replace (2 * i + 1 - 1) with (2 * i) by lia. apply pc_lift_even; exact Hi.
Qed.

(** f = fe(x^2) + x fo(x^2) *)
Lemma peo_split n (a : pv (2 * n)) : a = padd (plift (pev a)) (pmul px (plift (pod a))).
Proof.
  apply pv_ext; intros k Hk. par k Hk; rewrite pc_add by lia.
  - rewrite pc_lift_even, px_lift_even by lia. unfold pev; rewrite pc_mkp by lia. ring.
  - rewrite pc_lift_odd, px_lift_odd by lia. unfold pod; rewrite pc_mkp by lia. ring.
Qed.
Lemma pconj_split n (a : pv (2 * n)) : pconj a = psub (plift (pev a)) (pmul px (plift (pod a))).
Proof.
  apply pv_ext; intros k Hk. unfold pconj; rewrite pc_mkp by exact Hk. par k Hk; rewrite pc_sub by lia.
  - rewrite pc_lift_even, px_lift_even, evenb2 by lia. unfold pev; rewrite pc_mkp by lia. ring.
  - rewrite pc_lift_odd, px_lift_odd, evenb21 by lia. unfold pod; rewrite pc_mkp by lia. ring.
Qed.

(** x_{2n}^2 = lift x_n *)
Lemma px_sq n : 1 <= n -> pmul (@px (2 * n)) px = plift (@px n).
Proof.
  intros Hn. apply pv_ext; intros k Hk. rewrite pc_px_mul by lia.
  assert (E : forall j, j < 2 * n -> pc (@px (2 * n)) j = if j =? 1 then rI else rO).
  { intros j Hj. unfold px; rewrite pc_mkp by exact Hj. unfold sh. destruct (Nat.leb_spec 1 j).
    - unfold one_p. destruct (Nat.eqb_spec (j - 1) 0), (Nat.eqb_spec j 1); try lia; reflexivity.
    - unfold one_p. destruct (Nat.eqb_spec (2 * n + j - 1) 0), (Nat.eqb_spec j 1); try lia. ring. }
  par k Hk.
  - rewrite pc_lift_even by lia. unfold sh at 1. unfold px at 3; rewrite pc_mkp by lia. unfold sh, one_p.
    destruct (Nat.leb_spec 1 (2 * x)), (Nat.leb_spec 1 x); try lia.
    + rewrite E by lia. destruct (Nat.eqb_spec (2 * x - 1) 1), (Nat.eqb_spec (x - 1) 0); try lia; reflexivity.
    + rewrite E by lia. destruct (Nat.eqb_spec (2 * n + 2 * x - 1) 1), (Nat.eqb_spec (n + x - 1) 0); try lia; reflexivity.
  - rewrite pc_lift_odd by lia. unfold sh. destruct (Nat.leb_spec 1 (2 * x + 1)); [|lia].
    rewrite E by lia. destruct (Nat.eqb_spec (2 * x + 1 - 1) 1); [lia|reflexivity].
Qed.

(** field norm *)
Definition pnorm {n} (a : pv (2 * n)) : pv n :=
  psub (pmul (pev a) (pev a)) (pmul px (pmul (pod a) (pod a))).

Lemma pnorm_lift n (a : pv (2 * n)) : 1 <= n -> plift (pnorm a) = pmul a (pconj a).
Proof.
  intros Hn. pose proof (pring (2 * n)) as PR. unfold pnorm.
  rewrite plift_sub, !plift_mul, <- px_sq by exact Hn.
  rewrite pconj_split. rewrite (peo_split n a) at 5.
  apply (alg_norm _ _ _ _ _ _ _ (pring (2 * n))).
Qed.
End Poly.
