(** P_xring.v -- algebra of the butterfly layers over a commutative ring:
    the forward transform evaluates at the roots of x^N+1, the inverse undoes it. *)
From Verif Require Import Base Ring M_xform P_xform.
From Coq Require Import Ring_theory Ring.
Open Scope nat_scope.

Lemma pos_cases len M p : 0 < len -> p < M * (2 * len) ->
  exists b j, b < M /\ j < len /\ (p = b * (2 * len) + j \/ p = b * (2 * len) + j + len).
Proof.
  intros Hlen Hp. assert (D := Nat.div_mod p (2 * len) ltac:(lia)).
  assert (Bm := Nat.mod_upper_bound p (2 * len) ltac:(lia)).
  assert (Bd : p / (2 * len) < M) by (apply Nat.div_lt_upper_bound; lia).
  set (b := p / (2 * len)) in *. set (m := p mod (2 * len)) in *.
  destruct (Nat.ltb_spec m len).
  - exists b, m. repeat split; auto. left; lia.
  - exists b, (m - len). repeat split; auto; [lia|]. right; lia.
Qed.

Section B.
Variable R : Type.

Definition bflyR (len : nat) (up lo : nat -> R -> R -> R) (a : nat -> R) (p : nat) : R :=
  let b := p / (2 * len) in
  if p mod (2 * len) <? len then up b (a p) (a (p + len)) else lo b (a (p - len)) (a p).

Lemma bflyR_up len up lo a b j : j < len ->
  bflyR len up lo a (b * (2 * len) + j) = up b (a (b * (2 * len) + j)) (a (b * (2 * len) + j + len)).
Proof.
  intros H. unfold bflyR. rewrite div_block, mod_block by lia.
  destruct (Nat.ltb_spec j len); [reflexivity|lia].
Qed.

Lemma bflyR_lo len up lo a b j : j < len ->
  bflyR len up lo a (b * (2 * len) + j + len) = lo b (a (b * (2 * len) + j)) (a (b * (2 * len) + j + len)).
Proof.
  intros H. unfold bflyR. replace (b * (2 * len) + j + len) with (b * (2 * len) + (j + len)) by lia.
  rewrite div_block, mod_block by lia.
  destruct (Nat.ltb_spec (j + len) len); [lia|]. do 2 f_equal; lia.
Qed.

Lemma bflyR_ext len M up lo a a' p : 0 < len -> p < M * (2 * len) ->
  (forall i, i < M * (2 * len) -> a i = a' i) -> bflyR len up lo a p = bflyR len up lo a' p.
Proof.
  intros Hlen Hp H. destruct (pos_cases len M p Hlen Hp) as (b & j & Hb & Hj & [->| ->]).
  - rewrite !bflyR_up by exact Hj. rewrite !H by nia. reflexivity.
  - rewrite !bflyR_lo by exact Hj. rewrite !H by nia. reflexivity.
Qed.

End B.

(** Forward transform. *)
Section C.
Variable R : Type.
Variables (rO rI : R) (radd rmul rsub : R -> R -> R) (ropp : R -> R).
Variable Rth : ring_theory rO rI radd rmul rsub ropp eq.
Add Ring RRc : Rth.
Infix "+!" := radd (at level 50, left associativity).
Infix "*!" := rmul (at level 40, left associativity).
Infix "-!" := rsub (at level 50, left associativity).
Notation rsum := (rsum R rO radd).
Notation rpow := (rpow R rI rmul).
Notation reval := (reval R rO rI radd rmul).
Variable z : nat -> R.

Definition ctR (lg l : nat) (a : nat -> R) : nat -> R :=
  let M := 2 ^ (lg - 1 - l) in
  bflyR R (2 ^ l) (fun b x y => x +! z (M + b) *! y) (fun b x y => x -! z (M + b) *! y) a.

Fixpoint ct_iterR (lg k : nat) (a : nat -> R) : nat -> R :=
  match k with O => a | S k' => ct_iterR lg k' (ctR lg k' a) end.

Lemma ctR_ext lg l a a' p : l < lg -> p < 2 ^ lg -> (forall i, i < 2 ^ lg -> a i = a' i) ->
  ctR lg l a p = ctR lg l a' p.
Proof.
  intros Hl Hp H. rewrite (pow2_blocks lg l Hl) in *. apply bflyR_ext with (M := 2 ^ (lg - 1 - l)); auto. apply pow2_pos.
Qed.

Lemma ct_iterR_ext lg k a a' p : k <= lg -> p < 2 ^ lg -> (forall i, i < 2 ^ lg -> a i = a' i) ->
  ct_iterR lg k a p = ct_iterR lg k a' p.
Proof.
  revert a a'; induction k as [|k IH]; intros a a' Hk Hp H; simpl; [apply H; exact Hp|].
  apply IH; [lia|exact Hp|]. intros i Hi; apply ctR_ext; auto.
Qed.

Lemma ctR_scal lg l c a p : ctR lg l (fun i => c *! a i) p = c *! ctR lg l a p.
Proof. unfold ctR, bflyR. destruct (_ <? _); ring. Qed.

Lemma ct_iterR_scal lg k c a p : k <= lg -> p < 2 ^ lg -> ct_iterR lg k (fun i => c *! a i) p = c *! ct_iterR lg k a p.
Proof.
  revert a; induction k as [|k IH]; intros a Hk Hp; simpl; [reflexivity|].
  rewrite <- IH by (auto; lia). apply ct_iterR_ext; [lia|exact Hp|]. intros; apply ctR_scal.
Qed.

Section Ev.
Variable rho : nat -> R.

Definition heap_ok (lg : nat) : Prop :=
  rho 1 = ropp rI /\
  (forall k, 1 <= k < 2 ^ lg -> z k *! z k = rho k /\ rho (2 * k) = z k /\ rho (2 * k + 1) = ropp (z k)).

Lemma reval_split2 n f r : reval (n + n) f r = reval n f r +! rpow r n *! reval n (fun j => f (n + j)) r.
Proof.
  unfold Ring.reval. rewrite (rsum_split _ _ _ _ _ _ _ Rth).
  rewrite <- (rsum_scal _ _ _ _ _ _ _ Rth).
  f_equal. apply rsum_ext. intros i Hi. rewrite (rpow_add _ _ _ _ _ _ _ Rth). ring.
Qed.

Lemma ct_iter_eval lg (E : R -> R) : heap_ok lg -> forall k cur, k <= lg ->
  (forall b r, b < 2 ^ (lg - k) -> rpow r (2 ^ k) = rho (2 ^ (lg - k) + b) ->
     reval (2 ^ k) (fun j => cur (b * 2 ^ k + j)) r = E r) ->
  forall p, p < 2 ^ lg -> ct_iterR lg k cur p = E (rho (2 ^ lg + p)).
Proof.
  intros [H1 Hz]. induction k as [|l IH]; intros cur Hk Hinv p Hp.
  - simpl. rewrite Nat.sub_0_r in Hinv. rewrite <- (Hinv p); auto.
    + unfold Ring.reval; simpl. rewrite Nat.mul_1_r, Nat.add_0_r. ring.
    + simpl. ring.
  - simpl ct_iterR. apply IH; [lia|clear p Hp|exact Hp].
    intros c r Hc Hr.
    set (len := 2 ^ l) in *. set (M := 2 ^ (lg - S l)) in *.
    assert (Hlen : 0 < len) by apply pow2_pos. assert (HM : 0 < M) by apply pow2_pos.
    assert (E2 : 2 ^ (lg - l) = 2 * M).
    { unfold M. replace (lg - l) with (S (lg - S l)) by lia. reflexivity. }
    rewrite E2 in *.
    assert (ElgM : 2 ^ (lg - 1 - l) = M) by (unfold M; f_equal; lia).
    assert (EN : 2 ^ lg = M * (2 * len)).
    { unfold M, len. change (2 * 2 ^ l) with (2 ^ S l). rewrite <- Nat.pow_add_r. f_equal; lia. }
    assert (Elen : 2 ^ S l = len + len) by (simpl; unfold len; lia).
    set (b := c / 2). assert (Hb : b < M) by (apply Nat.div_lt_upper_bound; lia).
    assert (Hk1 : 1 <= M + b < 2 ^ lg) by (rewrite EN; nia).
    destruct (Hz (M + b) Hk1) as (Zsq & Rev & Rod).
    assert (Hr2 : rpow r (2 ^ S l) = rpow r len *! rpow r len) by (rewrite Elen; apply (rpow_add _ _ _ _ _ _ _ Rth)).
    assert (Hcase : c = 2 * b \/ c = 2 * b + 1).
    { unfold b. assert (D := Nat.div_mod c 2 ltac:(lia)). assert (B := Nat.mod_upper_bound c 2 ltac:(lia)). lia. }
    destruct Hcase as [Ec|Ec].
    + (* even child *)
      replace (2 * M + c) with (2 * (M + b)) in Hr by lia. rewrite Rev in Hr.
      rewrite <- (Hinv b r Hb). 2: { rewrite Hr2, Hr. exact Zsq. }
      rewrite Elen, reval_split2, Hr.
      rewrite <- (reval_scal _ _ _ _ _ _ _ Rth), <- (reval_add _ _ _ _ _ _ _ Rth).
      apply reval_ext. intros j Hj. unfold ctR. fold len. rewrite ElgM.
      replace (c * len + j) with (b * (2 * len) + j) by lia.
      rewrite bflyR_up by exact Hj.
      replace (b * (len + len) + j) with (b * (2 * len) + j) by lia.
      replace (b * (len + len) + (len + j)) with (b * (2 * len) + j + len) by lia. reflexivity.
    + replace (2 * M + c) with (2 * (M + b) + 1) in Hr by lia. rewrite Rod in Hr.
      rewrite <- (Hinv b r Hb). 2: { rewrite Hr2, Hr. rewrite <- Zsq. ring. }
      rewrite Elen, reval_split2, Hr.
      rewrite <- (reval_scal _ _ _ _ _ _ _ Rth), <- (reval_add _ _ _ _ _ _ _ Rth).
      apply reval_ext. intros j Hj. unfold ctR. fold len. rewrite ElgM.
      replace (c * len + j) with (b * (2 * len) + j + len) by lia.
      rewrite bflyR_lo by exact Hj.
      replace (b * (len + len) + j) with (b * (2 * len) + j) by lia.
      replace (b * (len + len) + (len + j)) with (b * (2 * len) + j + len) by lia. ring.
Qed.

Theorem ct_eval lg a : heap_ok lg -> forall p, p < 2 ^ lg ->
  ct_iterR lg lg a p = reval (2 ^ lg) a (rho (2 ^ lg + p)).
Proof.
  intros H p Hp. apply (ct_iter_eval lg (fun r => reval (2 ^ lg) a r) H lg a (le_n _)); [|exact Hp].
  rewrite Nat.sub_diag. intros b r Hb Hr. simpl in Hb. assert (b = 0) by lia. subst b. reflexivity.
Qed.

End Ev.
End C.

(** Inverse transform. *)
Section G.
Variable R : Type.
Variables (rO rI : R) (radd rmul rsub : R -> R -> R) (ropp : R -> R).
Variable Rth : ring_theory rO rI radd rmul rsub ropp eq.
Add Ring RRg : Rth.
Infix "+!" := radd (at level 50, left associativity).
Infix "*!" := rmul (at level 40, left associativity).
Infix "-!" := rsub (at level 50, left associativity).
Notation rsum := (rsum R rO radd).
Notation rpow := (rpow R rI rmul).
Notation reval := (reval R rO rI radd rmul).
Variable w : nat -> R.

Definition gsR (lg l : nat) (a : nat -> R) : nat -> R :=
  let M := 2 ^ (lg - 1 - l) in
  bflyR R (2 ^ l) (fun b x y => x +! y) (fun b x y => (x -! y) *! w (2 * M - 1 - b)) a.

Fixpoint gs_iterR (lg k : nat) (a : nat -> R) : nat -> R :=
  match k with O => a | S k' => gsR lg k' (gs_iterR lg k' a) end.

Lemma gsR_ext lg l a a' p : l < lg -> p < 2 ^ lg -> (forall i, i < 2 ^ lg -> a i = a' i) ->
  gsR lg l a p = gsR lg l a' p.
Proof.
  intros Hl Hp H. rewrite (pow2_blocks lg l Hl) in *. apply bflyR_ext with (M := 2 ^ (lg - 1 - l)); auto. apply pow2_pos.
Qed.

Lemma gs_iterR_ext lg k a a' p : k <= lg -> p < 2 ^ lg -> (forall i, i < 2 ^ lg -> a i = a' i) ->
  gs_iterR lg k a p = gs_iterR lg k a' p.
Proof.
  revert p; induction k as [|k IH]; intros p Hk Hp H; simpl; [apply H; exact Hp|].
  apply gsR_ext; [lia|exact Hp|]. intros i Hi; apply IH; auto; lia.
Qed.

Lemma gsR_scal lg l c a p : gsR lg l (fun i => c *! a i) p = c *! gsR lg l a p.
Proof. unfold gsR, bflyR. destruct (_ <? _); ring. Qed.

End G.

(** The two are inverse up to the factor N. *)
Section CG.
Variable R : Type.
Variables (rO rI : R) (radd rmul rsub : R -> R -> R) (ropp : R -> R).
Variable Rth : ring_theory rO rI radd rmul rsub ropp eq.
Add Ring RRcg : Rth.
Infix "+!" := radd (at level 50, left associativity).
Infix "*!" := rmul (at level 40, left associativity).
Infix "-!" := rsub (at level 50, left associativity).
Notation rsum := (rsum R rO radd).
Notation rpow := (rpow R rI rmul).
Notation reval := (reval R rO rI radd rmul).
Variables (z w : nat -> R).
Notation ctR := (ctR R radd rmul rsub z).
Notation ct_iterR := (ct_iterR R radd rmul rsub z).
Notation gsR := (gsR R radd rmul rsub w).
Notation gs_iterR := (gs_iterR R radd rmul rsub w).

Definition winv_ok (lg : nat) : Prop :=
  forall m b, m < lg -> b < 2 ^ m -> z (2 ^ m + b) *! w (2 * 2 ^ m - 1 - b) = rI.

Definition two : R := rI +! rI.

Lemma gs_ct lg l a p : winv_ok lg -> l < lg -> p < 2 ^ lg -> gsR lg l (ctR lg l a) p = two *! a p.
Proof.
  intros Hw Hl Hp. rewrite (pow2_blocks lg l Hl) in Hp.
  destruct (pos_cases (2 ^ l) (2 ^ (lg - 1 - l)) p (pow2_pos l) Hp) as (b & j & Hb & Hj & [->| ->]).
  - unfold gsR. rewrite bflyR_up by exact Hj. unfold ctR. rewrite bflyR_up, bflyR_lo by exact Hj. unfold two; ring.
  - unfold gsR. rewrite bflyR_lo by exact Hj. unfold ctR. rewrite bflyR_up, bflyR_lo by exact Hj.
    assert (E := Hw (lg - 1 - l) b ltac:(lia) Hb).
    match goal with |- (?x +! ?zz *! ?y -! (?x -! ?zz *! ?y)) *! ?ww = _ =>
      transitivity (two *! y *! (zz *! ww)); [unfold two; ring|rewrite E; ring] end.
Qed.

Lemma ct_gs lg l a p : winv_ok lg -> l < lg -> p < 2 ^ lg -> ctR lg l (gsR lg l a) p = two *! a p.
Proof.
  intros Hw Hl Hp. rewrite (pow2_blocks lg l Hl) in Hp.
  destruct (pos_cases (2 ^ l) (2 ^ (lg - 1 - l)) p (pow2_pos l) Hp) as (b & j & Hb & Hj & [->| ->]).
  - unfold ctR. rewrite bflyR_up by exact Hj. unfold gsR. rewrite bflyR_up, bflyR_lo by exact Hj.
    assert (E := Hw (lg - 1 - l) b ltac:(lia) Hb).
    match goal with |- ?x +! ?y +! ?zz *! ((?x -! ?y) *! ?ww) = _ =>
      transitivity (x +! y +! (x -! y) *! (zz *! ww)); [ring|rewrite E; unfold two; ring] end.
  - unfold ctR. rewrite bflyR_lo by exact Hj. unfold gsR. rewrite bflyR_up, bflyR_lo by exact Hj.
    assert (E := Hw (lg - 1 - l) b ltac:(lia) Hb).
    match goal with |- ?x +! ?y -! ?zz *! ((?x -! ?y) *! ?ww) = _ =>
      transitivity (x +! y -! (x -! y) *! (zz *! ww)); [ring|rewrite E; unfold two; ring] end.
Qed.

Lemma gs_ct_iter lg k a p : winv_ok lg -> k <= lg -> p < 2 ^ lg ->
  gs_iterR lg k (ct_iterR lg k a) p = rpow two k *! a p.
Proof.
  intros Hw. revert a p; induction k as [|k IH]; intros a p Hk Hp; simpl; [ring|].
  rewrite (gsR_ext R radd rmul rsub w lg k _ (fun i => rpow two k *! ctR lg k a i)) by (auto; intros; apply IH; auto; lia).
  rewrite (gsR_scal _ _ _ _ _ _ _ Rth), gs_ct by auto. ring.
Qed.

Lemma ct_gs_iter lg k a p : winv_ok lg -> k <= lg -> p < 2 ^ lg ->
  ct_iterR lg k (gs_iterR lg k a) p = rpow two k *! a p.
Proof.
  intros Hw. revert a p; induction k as [|k IH]; intros a p Hk Hp; simpl; [ring|].
  rewrite (ct_iterR_ext R radd rmul rsub z lg k _ (fun i => two *! gs_iterR lg k a i)) by (auto; try lia; intros; apply ct_gs; auto; lia).
  rewrite (ct_iterR_scal _ _ _ _ _ _ _ Rth), IH by (auto; lia). ring.
Qed.

End CG.

(** Transfer to arrays of an implementation type. *)
Section ImplB.
Variables (R T : Type) (d : T) (phi : T -> R) (V : T -> Prop).

Lemma bfly_phi len M up lo upR loR (a : list T) p :
  0 < len -> length a = M * (2 * len) -> p < length a ->
  (forall i, i < length a -> V (nth i a d)) ->
  (forall b x y, b < M -> V x -> V y -> V (up b x y) /\ phi (up b x y) = upR b (phi x) (phi y)) ->
  (forall b x y, b < M -> V x -> V y -> V (lo b x y) /\ phi (lo b x y) = loR b (phi x) (phi y)) ->
  V (bfly T d len up lo a p) /\ phi (bfly T d len up lo a p) = bflyR R len upR loR (fun i => phi (nth i a d)) p.
Proof.
  intros Hlen La Hp HV Hup Hlo. rewrite La in Hp.
  assert (Hb : p / (2 * len) < M) by (apply Nat.div_lt_upper_bound; lia).
  assert (Bm := Nat.mod_upper_bound p (2 * len) ltac:(lia)).
  assert (D := Nat.div_mod p (2 * len) ltac:(lia)).
  unfold bfly, bflyR. destruct (Nat.ltb_spec (p mod (2 * len)) len).
  - apply Hup; auto; apply HV; nia.
  - apply Hlo; auto; apply HV; nia.
Qed.
End ImplB.

Section ImplC.
Variable R : Type.
Variables (radd rmul rsub : R -> R -> R).
Variable z : nat -> R.
Infix "+!" := radd (at level 50, left associativity).
Infix "*!" := rmul (at level 40, left associativity).
Infix "-!" := rsub (at level 50, left associativity).
Variables (T : Type) (d : T) (mulz subt addt : T -> T -> T) (ztab : list T).
Variables (phi : T -> R) (V : T -> Prop) (lg : nat).
Notation ctR := (ctR R radd rmul rsub z).
Notation ct_iterR := (ct_iterR R radd rmul rsub z).

Definition ct_ops_ok : Prop := forall k x y, k < 2 ^ lg -> V x -> V y ->
  (V (addt x (mulz (nth k ztab d) y)) /\ phi (addt x (mulz (nth k ztab d) y)) = phi x +! z k *! phi y) /\
  (V (subt x (mulz (nth k ztab d) y)) /\ phi (subt x (mulz (nth k ztab d) y)) = phi x -! z k *! phi y).

Lemma ctF_phi l a : ct_ops_ok -> l < lg -> length a = 2 ^ lg -> (forall i, i < 2 ^ lg -> V (nth i a d)) ->
  forall p, p < 2 ^ lg -> V (nth p (ctF T d mulz subt addt ztab lg l a) d) /\
    phi (nth p (ctF T d mulz subt addt ztab lg l a) d) = ctR lg l (fun i => phi (nth i a d)) p.
Proof.
  intros Ho Hl La HV p Hp. unfold ctF, ctR. rewrite nth_tab by lia.
  assert (EN := pow2_blocks lg l Hl).
  apply bfly_phi with (M := 2 ^ (lg - 1 - l)); auto; try lia; try apply pow2_pos.
  - rewrite La; exact HV.
  - intros b x y Hb Vx Vy. apply Ho; auto. assert (P := pow2_pos l). nia.
  - intros b x y Hb Vx Vy. apply Ho; auto. assert (P := pow2_pos l). nia.
Qed.

Lemma ct_iter_phi k a : ct_ops_ok -> k <= lg -> length a = 2 ^ lg -> (forall i, i < 2 ^ lg -> V (nth i a d)) ->
  forall p, p < 2 ^ lg -> V (nth p (ct_iter T d mulz subt addt ztab lg k a) d) /\
    phi (nth p (ct_iter T d mulz subt addt ztab lg k a) d) = ct_iterR lg k (fun i => phi (nth i a d)) p.
Proof.
  intros Ho. revert a; induction k as [|k IH]; intros a Hk La HV p Hp; simpl; [split; auto|].
  destruct (IH (ctF T d mulz subt addt ztab lg k a)) with (p := p) as [V1 E1]; auto; try lia.
  - rewrite ctF_length; exact La.
  - intros i Hi. apply ctF_phi; auto.
  - split; [exact V1|]. rewrite E1. apply ct_iterR_ext; [lia|exact Hp|]. intros i Hi. apply ctF_phi; auto.
Qed.

End ImplC.

Section ImplG.
Variable R : Type.
Variables (radd rmul rsub : R -> R -> R).
Variable w : nat -> R.
Infix "+!" := radd (at level 50, left associativity).
Infix "*!" := rmul (at level 40, left associativity).
Infix "-!" := rsub (at level 50, left associativity).
Variables (T : Type) (d : T) (addi subi muli : T -> T -> T) (nztab : list T).
Variables (phi : T -> R) (V : T -> Prop) (lg : nat).
Notation gsR := (gsR R radd rmul rsub w).
Notation gs_iterR := (gs_iterR R radd rmul rsub w).

Definition gs_ops_ok : Prop := forall k x y, k < 2 ^ lg -> V x -> V y ->
  (V (addi x y) /\ phi (addi x y) = phi x +! phi y) /\
  (V (muli (subi x y) (nth k nztab d)) /\ phi (muli (subi x y) (nth k nztab d)) = (phi x -! phi y) *! w k).

Lemma gsF_phi l a : gs_ops_ok -> l < lg -> length a = 2 ^ lg -> (forall i, i < 2 ^ lg -> V (nth i a d)) ->
  forall p, p < 2 ^ lg -> V (nth p (gsF T d addi subi muli nztab lg l a) d) /\
    phi (nth p (gsF T d addi subi muli nztab lg l a) d) = gsR lg l (fun i => phi (nth i a d)) p.
Proof.
  intros Ho Hl La HV p Hp. unfold gsF, gsR. rewrite nth_tab by lia.
  assert (EN := pow2_blocks lg l Hl).
  apply bfly_phi with (M := 2 ^ (lg - 1 - l)); auto; try lia; try apply pow2_pos.
  - rewrite La; exact HV.
  - intros b x y Hb Vx Vy. assert (P := pow2_pos l). apply (Ho 0); auto. nia.
  - intros b x y Hb Vx Vy. apply Ho; auto. assert (P := pow2_pos l). nia.
Qed.

Lemma gs_iter_phi k a : gs_ops_ok -> k <= lg -> length a = 2 ^ lg -> (forall i, i < 2 ^ lg -> V (nth i a d)) ->
  forall p, p < 2 ^ lg -> V (nth p (gs_iter T d addi subi muli nztab lg k a) d) /\
    phi (nth p (gs_iter T d addi subi muli nztab lg k a) d) = gs_iterR lg k (fun i => phi (nth i a d)) p.
Proof.
  intros Ho. induction k as [|k IH]; intros Hk La HV p Hp; simpl; [split; auto|].
  assert (IH' := IH ltac:(lia) La HV).
  destruct (gsF_phi k (gs_iter T d addi subi muli nztab lg k a)) with (p := p) as [V1 E1]; auto; try lia.
  - rewrite gs_iter_length; exact La.
  - intros i Hi. apply IH'; exact Hi.
  - split; [exact V1|]. rewrite E1. apply gsR_ext; [lia|exact Hp|]. intros i Hi. apply IH'; exact Hi.
Qed.

End ImplG.
