(** Ring.v -- finite sums and negacyclic products over an arbitrary commutative ring.

    [sh n i b] is x^i * b in R[x]/(x^n+1) (coefficient functions), [nconv n a b] the product. *)
From Verif Require Import Base.
From Coq Require Import Ring_theory Ring.
Open Scope nat_scope.

Section CRing.
Variable R : Type.
Variables (rO rI : R) (radd rmul rsub : R -> R -> R) (ropp : R -> R).
Variable Rth : ring_theory rO rI radd rmul rsub ropp eq.
Add Ring RR : Rth.
Infix "+!" := radd (at level 50, left associativity).
Infix "*!" := rmul (at level 40, left associativity).
Infix "-!" := rsub (at level 50, left associativity).

Fixpoint rsum (n : nat) (f : nat -> R) : R :=
  match n with O => rO | S n' => rsum n' f +! f n' end.

Fixpoint rpow (x : R) (n : nat) : R :=
  match n with O => rI | S n' => x *! rpow x n' end.

Lemma rsum_ext n f g : (forall i, i < n -> f i = g i) -> rsum n f = rsum n g.
Proof. induction n as [|n IH]; simpl; intros H; [reflexivity|]. rewrite IH, H; auto. Qed.

Lemma rsum_add n f g : rsum n (fun i => f i +! g i) = rsum n f +! rsum n g.
Proof. induction n as [|n IH]; simpl; [ring|rewrite IH; ring]. Qed.

Lemma rsum_sub n f g : rsum n (fun i => f i -! g i) = rsum n f -! rsum n g.
Proof. induction n as [|n IH]; simpl; [ring|rewrite IH; ring]. Qed.

Lemma rsum_opp n f : rsum n (fun i => ropp (f i)) = ropp (rsum n f).
Proof. induction n as [|n IH]; simpl; [ring|rewrite IH; ring]. Qed.

Lemma rsum_scal n c f : rsum n (fun i => c *! f i) = c *! rsum n f.
Proof. induction n as [|n IH]; simpl; [ring|rewrite IH; ring]. Qed.

Lemma rsum_scal_r n c f : rsum n (fun i => f i *! c) = rsum n f *! c.
Proof. induction n as [|n IH]; simpl; [ring|rewrite IH; ring]. Qed.

Lemma rsum_zero n f : (forall i, i < n -> f i = rO) -> rsum n f = rO.
Proof. induction n as [|n IH]; simpl; intros H; [reflexivity|]. rewrite IH, H; auto; ring. Qed.

Lemma rsum_swap n m f :
  rsum n (fun i => rsum m (fun j => f i j)) = rsum m (fun j => rsum n (fun i => f i j)).
Proof.
  induction n as [|n IH]; simpl.
  - rewrite rsum_zero; auto.
  - rewrite IH, <- rsum_add. apply rsum_ext; auto.
Qed.

Lemma rsum_S_l n f : rsum (S n) f = f 0 +! rsum n (fun i => f (S i)).
Proof. induction n as [|n IH]; simpl in *; [ring|rewrite IH; ring]. Qed.

Lemma rsum_split n m f : rsum (n + m) f = rsum n f +! rsum m (fun i => f (n + i)).
Proof.
  induction m as [|m IH].
  - rewrite Nat.add_0_r; simpl; ring.
  - rewrite Nat.add_succ_r; simpl; rewrite IH; ring.
Qed.

Lemma rsum_rev n f : rsum n f = rsum n (fun i => f (n - 1 - i)).
Proof.
  induction n as [|n IH]; [reflexivity|].
  rewrite (rsum_S_l n (fun i => f (S n - 1 - i))). simpl rsum at 1. rewrite IH.
  replace (S n - 1 - 0) with n by lia.
  rewrite (rsum_ext n (fun i => f (S n - 1 - S i)) (fun i => f (n - 1 - i))).
  - ring.
  - intros i Hi; f_equal; lia.
Qed.

Lemma rsum_single n f k : k < n -> (forall i, i < n -> i <> k -> f i = rO) -> rsum n f = f k.
Proof.
  induction n as [|n IH]; intros Hk H; [lia|]. simpl.
  destruct (Nat.eq_dec k n) as [->|Hn].
  - rewrite rsum_zero; [ring|]. intros i Hi; apply H; lia.
  - rewrite IH; [|lia|intros i Hi; apply H; lia]. rewrite (H n); [ring|lia|lia].
Qed.

(** Splitting by parity. *)
Lemma rsum_parity n f : rsum (2 * n) f = rsum n (fun i => f (2 * i)) +! rsum n (fun i => f (2 * i + 1)).
Proof.
  induction n as [|n IH]; [simpl; ring|].
  replace (2 * S n) with (S (S (2 * n))) by lia. simpl rsum. simpl in IH. rewrite IH.
  replace (n + (n + 0) + 1) with (S (n + (n + 0))) by lia. ring.
Qed.

(** Splitting into blocks. *)
Lemma rsum_blocks n m f : rsum (n * m) f = rsum n (fun i => rsum m (fun j => f (i * m + j))).
Proof.
  induction n as [|n IH]; [reflexivity|].
  replace (S n * m) with (n * m + m) by lia. rewrite rsum_split, IH. reflexivity.
Qed.

Lemma rpow_add x n m : rpow x (n + m) = rpow x n *! rpow x m.
Proof. induction n as [|n IH]; simpl; [ring|rewrite IH; ring]. Qed.

Lemma rpow_1 n : rpow rI n = rI.
Proof. induction n as [|n IH]; simpl; [reflexivity|rewrite IH; ring]. Qed.

Lemma rpow_mul x y n : rpow (x *! y) n = rpow x n *! rpow y n.
Proof. induction n as [|n IH]; simpl; [ring|rewrite IH; ring]. Qed.

Lemma rpow_rpow x n m : rpow (rpow x n) m = rpow x (n * m).
Proof.
  induction m as [|m IH]; simpl.
  - rewrite Nat.mul_0_r; reflexivity.
  - rewrite IH, <- rpow_add. f_equal; lia.
Qed.

(** Evaluation of the polynomial with coefficients a_0..a_{n-1}. *)
Definition reval (n : nat) (a : nat -> R) (r : R) : R := rsum n (fun i => a i *! rpow r i).

Lemma reval_ext n a b r : (forall i, i < n -> a i = b i) -> reval n a r = reval n b r.
Proof. intros H; apply rsum_ext; intros i Hi; rewrite H; auto. Qed.

(** Multiplication by x^i modulo x^n+1 (for i <= n, at k < n). *)
Definition sh (n i : nat) (b : nat -> R) (k : nat) : R :=
  if i <=? k then b (k - i) else ropp (b (n + k - i)).

(** Product in R[x]/(x^n+1). *)
Definition nconv (n : nat) (a b : nat -> R) (k : nat) : R :=
  rsum n (fun i => a i *! sh n i b k).

Lemma sh_ext n i b b' k : i <= n -> k < n -> (forall j, j < n -> b j = b' j) -> sh n i b k = sh n i b' k.
Proof.
  intros Hi Hk H; unfold sh. destruct (Nat.leb_spec i k); [|f_equal]; apply H; lia.
Qed.

Lemma nconv_ext n a a' b b' k :
  k < n -> (forall j, j < n -> a j = a' j) -> (forall j, j < n -> b j = b' j) ->
  nconv n a b k = nconv n a' b' k.
Proof.
  intros Hk Ha Hb; apply rsum_ext; intros i Hi. rewrite Ha by exact Hi.
  f_equal. apply sh_ext; auto; lia.
Qed.

Lemma sh_0 n b k : sh n 0 b k = b k.
Proof. unfold sh; simpl; f_equal; lia. Qed.

Lemma sh_S n i b k : i < n -> k < n -> sh n (S i) b k = sh n 1 (fun j => sh n i b j) k.
Proof.
  intros Hi Hk; unfold sh.
  destruct (Nat.leb_spec 1 k).
  - destruct (Nat.leb_spec (S i) k), (Nat.leb_spec i (k - 1)); try lia.
    + f_equal; lia.
    + do 2 f_equal; lia.
  - destruct (Nat.leb_spec (S i) k), (Nat.leb_spec i (n + k - 1)); try lia.
    do 2 f_equal; lia.
Qed.

Lemma sh_n n b k : k < n -> sh n n b k = ropp (b k).
Proof. intros Hk; unfold sh. destruct (Nat.leb_spec n k); [lia|]. do 2 f_equal; lia. Qed.

Lemma sh_add n i a b k : sh n i (fun j => a j +! b j) k = sh n i a k +! sh n i b k.
Proof. unfold sh; destruct (i <=? k); [reflexivity|ring]. Qed.

Lemma sh_sub n i a b k : sh n i (fun j => a j -! b j) k = sh n i a k -! sh n i b k.
Proof. unfold sh; destruct (i <=? k); [reflexivity|ring]. Qed.

Lemma sh_scal n i c b k : sh n i (fun j => c *! b j) k = c *! sh n i b k.
Proof. unfold sh; destruct (i <=? k); [reflexivity|ring]. Qed.

Lemma sh_rsum n i m (f : nat -> nat -> R) k :
  sh n i (fun j => rsum m (fun l => f l j)) k = rsum m (fun l => sh n i (f l) k).
Proof. unfold sh; destruct (i <=? k); [reflexivity|]. rewrite <- rsum_opp. reflexivity. Qed.

Lemma nconv_add_l n a a' b k : nconv n (fun j => a j +! a' j) b k = nconv n a b k +! nconv n a' b k.
Proof. unfold nconv; rewrite <- rsum_add; apply rsum_ext; intros; ring. Qed.

Lemma nconv_sub_l n a a' b k : nconv n (fun j => a j -! a' j) b k = nconv n a b k -! nconv n a' b k.
Proof. unfold nconv; rewrite <- rsum_sub; apply rsum_ext; intros; ring. Qed.

Lemma nconv_add_r n a b b' k : nconv n a (fun j => b j +! b' j) k = nconv n a b k +! nconv n a b' k.
Proof. unfold nconv; rewrite <- rsum_add; apply rsum_ext; intros; rewrite sh_add; ring. Qed.

Lemma nconv_sub_r n a b b' k : nconv n a (fun j => b j -! b' j) k = nconv n a b k -! nconv n a b' k.
Proof. unfold nconv; rewrite <- rsum_sub; apply rsum_ext; intros; rewrite sh_sub; ring. Qed.

Lemma nconv_scal_l n c a b k : nconv n (fun j => c *! a j) b k = c *! nconv n a b k.
Proof. unfold nconv; rewrite <- rsum_scal; apply rsum_ext; intros; ring. Qed.

Lemma nconv_scal_r n c a b k : nconv n a (fun j => c *! b j) k = c *! nconv n a b k.
Proof. unfold nconv; rewrite <- rsum_scal; apply rsum_ext; intros; rewrite sh_scal; ring. Qed.

Lemma sh1_nconv n b c k : k < n ->
  sh n 1 (fun j => nconv n b c j) k = nconv n (fun j => sh n 1 b j) c k.
Proof.
  intros Hk. destruct n as [|m]; [lia|].
  unfold nconv at 1. rewrite sh_rsum.
  (* move the shift inside *)
  rewrite (rsum_ext _ _ (fun l => b l *! sh (S m) (S l) c k)).
  2: { intros l Hl. rewrite sh_scal. f_equal.
       rewrite (sh_S (S m) l c k Hl Hk). reflexivity. }
  simpl rsum. rewrite sh_n by exact Hk.
  unfold nconv. rewrite rsum_S_l. rewrite sh_0.
  assert (E0 : sh (S m) 1 b 0 = ropp (b m)).
  { unfold sh; simpl. f_equal; f_equal; lia. }
  rewrite E0.
  rewrite (rsum_ext m (fun i => sh (S m) 1 b (S i) *! sh (S m) (S i) c k)
                      (fun i => b i *! sh (S m) (S i) c k)).
  - ring.
  - intros i Hi. f_equal. unfold sh; simpl. f_equal; lia.
Qed.

Lemma sh_nconv n i b c k : i <= n -> k < n ->
  sh n i (fun j => nconv n b c j) k = nconv n (fun j => sh n i b j) c k.
Proof.
  revert k; induction i as [|i IH]; intros k Hi Hk.
  - rewrite sh_0. apply nconv_ext; auto. intros j Hj; rewrite sh_0; reflexivity.
  - rewrite sh_S by lia.
    rewrite (sh_ext n 1 _ (fun j => nconv n (fun l => sh n i b l) c j)); [|lia|lia|].
    + rewrite sh1_nconv by exact Hk. apply nconv_ext; auto.
      intros j Hj. rewrite <- sh_S by lia. reflexivity.
    + intros j Hj. apply IH; lia.
Qed.

Lemma nconv_rsum_l n m (f : nat -> nat -> R) c k :
  nconv n (fun j => rsum m (fun l => f l j)) c k = rsum m (fun l => nconv n (f l) c k).
Proof.
  unfold nconv. rewrite rsum_swap. apply rsum_ext; intros i Hi. rewrite <- rsum_scal_r. reflexivity.
Qed.

Lemma nconv_assoc n a b c k : k < n ->
  nconv n a (fun j => nconv n b c j) k = nconv n (fun j => nconv n a b j) c k.
Proof.
  intros Hk. unfold nconv at 1.
  rewrite (rsum_ext _ _ (fun i => nconv n (fun j => a i *! sh n i b j) c k)).
  - rewrite <- nconv_rsum_l. reflexivity.
  - intros i Hi. rewrite nconv_scal_l. f_equal. apply sh_nconv; lia.
Qed.

Lemma nconv_comm n a b k : k < n -> nconv n a b k = nconv n b a k.
Proof.
  intros Hk.
  assert (E : forall a b, nconv n a b k =
    rsum (S k) (fun i => a i *! b (k - i)) -!
    rsum (n - S k) (fun m => a (S k + m) *! b (n - 1 - m))).
  { clear a b; intros a b. unfold nconv. replace n with (S k + (n - S k)) at 1 by lia.
    rewrite rsum_split.
    rewrite (rsum_ext (S k) _ (fun i => a i *! b (k - i))).
    2: { intros i Hi. unfold sh. destruct (Nat.leb_spec i k); [reflexivity|lia]. }
    rewrite (rsum_ext (n - S k) _ (fun m => ropp (a (S k + m) *! b (n - 1 - m)))).
    2: { intros m Hm. unfold sh. destruct (Nat.leb_spec (S k + m) k); [lia|].
         replace (n + k - (S k + m)) with (n - 1 - m) by lia. ring. }
    rewrite rsum_opp. ring. }
  rewrite !E. f_equal.
  - rewrite rsum_rev. apply rsum_ext; intros i Hi.
    replace (S k - 1 - i) with (k - i) by lia.
    replace (k - (k - i)) with i by lia. ring.
  - rewrite rsum_rev. apply rsum_ext; intros i Hi.
    replace (S k + (n - S k - 1 - i)) with (n - 1 - i) by lia.
    replace (n - 1 - (n - S k - 1 - i)) with (S k + i) by lia. ring.
Qed.

(** The unit polynomial. *)
Definition one_p (k : nat) : R := if Nat.eqb k 0 then rI else rO.

Lemma nconv_1_l n b k : k < n -> nconv n one_p b k = b k.
Proof.
  intros Hk. unfold nconv. rewrite (rsum_single n _ 0); [|lia|].
  - unfold one_p; simpl. rewrite sh_0; ring.
  - intros i Hi Hn. unfold one_p. destruct (Nat.eqb_spec i 0); [lia|]. ring.
Qed.

Lemma nconv_1_r n b k : k < n -> nconv n b one_p k = b k.
Proof. intros Hk; rewrite nconv_comm by exact Hk; apply nconv_1_l; exact Hk. Qed.

(** Constant polynomial times polynomial. *)
Definition cst_p (c : R) (k : nat) : R := if Nat.eqb k 0 then c else rO.

Lemma nconv_cst_l n c b k : k < n -> nconv n (cst_p c) b k = c *! b k.
Proof.
  intros Hk. unfold nconv. rewrite (rsum_single n _ 0); [|lia|].
  - unfold cst_p; simpl. rewrite sh_0; ring.
  - intros i Hi Hn. unfold cst_p. destruct (Nat.eqb_spec i 0); [lia|]. ring.
Qed.

(** Evaluation at a root of x^n = -1 is a ring morphism. *)
Lemma reval_sh n i b r : rpow r n = ropp rI -> i <= n ->
  reval n (fun k => sh n i b k) r = rpow r i *! reval n b r.
Proof.
  intros Hr. induction i as [|i IH]; intros Hi.
  - simpl. rewrite (reval_ext n _ b) by (intros; apply sh_0). ring.
  - rewrite (reval_ext n _ (fun k => sh n 1 (fun j => sh n i b j) k)) by (intros; apply sh_S; lia).
    simpl rpow. transitivity (r *! reval n (fun j => sh n i b j) r).
    2: { rewrite IH by lia. ring. }
    generalize (fun j => sh n i b j); intros c.
    destruct n as [|m]; [lia|].
    unfold reval. rewrite rsum_S_l.
    rewrite (rsum_ext m _ (fun k => r *! (c k *! rpow r k))).
    2: { intros k Hk. unfold sh; simpl. replace (k - 0) with k by lia. ring. }
    rewrite rsum_scal. simpl rsum. simpl in Hr.
    unfold sh; simpl. replace (m + 0 - 0) with m by lia.
    transitivity (r *! rsum m (fun i0 => c i0 *! rpow r i0) +! (r *! rpow r m) *! c m); [|ring].
    rewrite Hr. ring.
Qed.

Lemma reval_nconv n a b r : rpow r n = ropp rI ->
  reval n (fun k => nconv n a b k) r = reval n a r *! reval n b r.
Proof.
  intros Hr. unfold reval at 1, nconv.
  rewrite (rsum_ext _ _ (fun k => rsum n (fun i => a i *! (sh n i b k *! rpow r k)))).
  2: { intros k Hk. rewrite <- rsum_scal_r. apply rsum_ext; intros; ring. }
  rewrite rsum_swap.
  rewrite (rsum_ext _ _ (fun i => (a i *! rpow r i) *! reval n b r)).
  2: { intros i Hi. rewrite rsum_scal.
       change (rsum n (fun i0 => sh n i b i0 *! rpow r i0)) with (reval n (fun k => sh n i b k) r).
       rewrite reval_sh by (auto; lia). ring. }
  rewrite rsum_scal_r. reflexivity.
Qed.

Lemma reval_add n a b r : reval n (fun k => a k +! b k) r = reval n a r +! reval n b r.
Proof. unfold reval; rewrite <- rsum_add; apply rsum_ext; intros; ring. Qed.
Lemma reval_sub n a b r : reval n (fun k => a k -! b k) r = reval n a r -! reval n b r.
Proof. unfold reval; rewrite <- rsum_sub; apply rsum_ext; intros; ring. Qed.
Lemma reval_scal n c a r : reval n (fun k => c *! a k) r = c *! reval n a r.
Proof. unfold reval; rewrite <- rsum_scal; apply rsum_ext; intros; ring. Qed.

Lemma reval_one n r : n > 0 -> reval n one_p r = rI.
Proof.
  intros Hn. unfold reval. rewrite (rsum_single n _ 0); [|lia|].
  - unfold one_p; simpl; ring.
  - intros i Hi Hi0; unfold one_p. destruct (Nat.eqb_spec i 0); [lia|]; ring.
Qed.

End CRing.
