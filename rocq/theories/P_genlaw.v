(** P_genlaw.v -- distribution of the polynomials drawn by gen_poly, for any floating point behaviour. *)
From Verif Require Import Base Spec SpecG SpecJ SpecK M_float M_samp M_fft M_ntru P_codec P_samp P_sampz P_prob P_joint P_dist64.
From Coq Require Import Reals Lra FinFun.
Open Scope R_scope.
Notation ind := P_prob.ind.

(** ** computations that read a stream of bytes from a position *)
Lemma lsum_ext {A} (f g : A -> R) l : (forall a, In a l -> f a = g a) -> lsum f l = lsum g l.
Proof. induction l as [|a l IH]; intros H; [reflexivity|]. unfold lsum in *. cbn [fold_right]. rewrite (H a (or_introl eq_refl)), IH; [reflexivity|intros; apply H; right; assumption]. Qed.
Lemma lsum_scal {A} c (f : A -> R) l : lsum (fun a => c * f a) l = c * lsum f l.
Proof. induction l as [|a l IH]; unfold lsum in *; cbn [fold_right]; [ring|]. rewrite IH. ring. Qed.
Lemma lsum_zero {A} (f : A -> R) l : (forall a, In a l -> f a = 0) -> lsum f l = 0.
Proof. induction l as [|a l IH]; intros H; unfold lsum in *; cbn [fold_right]; [reflexivity|]. rewrite (H a (or_introl eq_refl)), IH; [ring|intros; apply H; right; assumption]. Qed.
Lemma lsum_one {A} (f : A -> R) l x : NoDup l -> In x l -> (forall a, In a l -> a <> x -> f a = 0) -> lsum f l = f x.
Proof.
  induction l as [|a l IH]; intros Nd Hx H; [destruct Hx|]. inversion Nd as [|? ? N1 N2]; subst. unfold lsum in *. cbn [fold_right]. destruct Hx as [->|Hx].
  - assert (E : lsum f l = 0) by (apply lsum_zero; intros a Ha; apply H; [right; exact Ha|intros ->; contradiction]). unfold lsum in E. rewrite E. ring.
  - rewrite IH; [|assumption|assumption|intros; apply H; [right|]; assumption]. rewrite (H a (or_introl eq_refl)); [ring|]. intros ->. contradiction.
Qed.
Lemma avg_lsum {A} n (f : A -> list Z -> R) l : avg n (fun s => lsum (fun a => f a s) l) = lsum (fun a => avg n (f a)) l.
Proof. induction l as [|a l IH]; unfold lsum in *; cbn [fold_right]; [apply avg_const|]. rewrite avg_plus, IH. reflexivity. Qed.

Definition comp (A : Type) := (nat -> Z) -> nat -> res (A * nat).
Definition ret {A} (a : A) : comp A := fun _ pos => Ok (a, pos).
Definition cbind {A B} (m : comp A) (k : A -> comp B) : comp B := fun g pos => '(a, p) <- m g pos ;; k a g p.
Definition shifts {A} (m : comp A) : Prop := forall g g' p q, (forall i, g (p + i)%nat = g' i) -> m g (p + q)%nat = match m g' q with Ok (v, n) => Ok (v, (p + n)%nat) | UB => UB | Fuel => Fuel end.
Lemma shifts_ret {A} (a : A) : shifts (ret a). Proof. intros g g' p q _. reflexivity. Qed.
Lemma shifts_bind {A B} (m : comp A) (k : A -> comp B) : shifts m -> (forall a, shifts (k a)) -> shifts (cbind m k).
Proof. intros Hm Hk g g' p q H. unfold cbind. rewrite (Hm g g' p q H). destruct (m g' q) as [[a n]| |]; cbn [bind]; [apply Hk; exact H|reflexivity|reflexivity]. Qed.
Section Law.
Context {A : Type} (dec : forall x y : A, {x = y} + {x <> y}).
(** the value v is returned, and f of the bytes that follow *)
Definition contm (m : comp A) (v : A) (f : list Z -> R) (s : list Z) : R := match m (stream s) 0%nat with Ok (v', p) => if dec v' v then f (skipn p s) else 0 | _ => 0 end.
(** m returns v with probability w, whatever comes after, on at most len bytes *)
Definition law (m : comp A) (len : nat) (v : A) (w : R) : Prop :=
  forall f c n0 n, (forall n', (n0 <= n')%nat -> avg n' f = c) -> (len + n0 <= n)%nat -> avg n (contm m v f) = c * w.
Lemma law_ret a v : law (ret a) 0 v (if dec a v then 1 else 0).
Proof.
  intros f c n0 n Hf Hn. unfold contm, ret. cbn [skipn]. destruct (dec a v) as [_|_]; [rewrite Hf by lia; ring|rewrite avg_const; ring].
Qed.
Lemma law_len m len len' v w : law m len v w -> (len <= len')%nat -> law m len' v w.
Proof. intros H L f c n0 n Hf Hn. apply (H f c n0); [exact Hf|lia]. Qed.
Lemma law_prob m len v w n : law m len v w -> (len <= n)%nat -> avg n (contm m v (fun _ => 1)) = w.
Proof. intros H L. rewrite (H (fun _ => 1) 1 0%nat n); [ring|intros; apply avg_const|lia]. Qed.
End Law.
Definition ok_bytes {A} (m : comp A) (l : list A) : Prop := forall s a p, bytes s -> m (stream s) 0%nat = Ok (a, p) -> In a l.
Lemma law_bind {A B} (dA : forall x y : A, {x = y} + {x <> y}) (dB : forall x y : B, {x = y} + {x <> y}) (m : comp A) (k : A -> comp B) l la lb (wa : A -> R) b (wb : A -> R) :
  NoDup l -> ok_bytes m l -> (forall a, shifts (k a)) -> (forall a, In a l -> law dA m la a (wa a)) -> (forall a, In a l -> law dB (k a) lb b (wb a)) ->
  law dB (cbind m k) (la + lb) b (lsum (fun a => wa a * wb a) l).
Proof.
  intros Nd Sup Sh HA HB f c n0 n Hf Hn.
  rewrite (avg_ext n _ (fun s => lsum (fun a => contm dA m a (contm dB (k a) b f) s) l)).
  - rewrite avg_lsum. rewrite (lsum_ext _ (fun a => c * (wa a * wb a))); [apply lsum_scal|]. intros a Ha. transitivity (c * wb a * wa a); [|ring]. apply (HA a Ha (contm dB (k a) b f) (c * wb a) (lb + n0)%nat n); [|lia].
    intros n' Hn'. apply (HB a Ha f c n0); [exact Hf|exact Hn'].
  - intros s _ Hs. unfold contm at 1, cbind. destruct (m (stream s) 0%nat) as [[a p]| |] eqn:E; cbn [bind].
    + assert (Ha := Sup s a p Hs E). rewrite (lsum_one _ l a Nd Ha).
      * unfold contm. rewrite E. destruct (dA a a) as [_|N]; [|contradiction]. rewrite <- (Nat.add_0_r p) at 1. rewrite (Sh a (stream s) (stream (skipn p s)) p 0%nat) by (intros i; unfold stream; symmetry; apply nth_skip).
        destruct (k a (stream (skipn p s)) 0%nat) as [[b' p']| |]; [|reflexivity|reflexivity]. destruct (dB b' b); [rewrite skipn_skipn_add|]; reflexivity.
      * intros a' _ N. unfold contm. rewrite E. destruct (dA a a') as [->|_]; [contradiction|reflexivity].
    + symmetry. apply lsum_zero. intros a _. unfold contm. rewrite E. reflexivity.
    + symmetry. apply lsum_zero. intros a _. unfold contm. rewrite E. reflexivity.
Qed.
(** an injective function of the result *)
Lemma law_map {A B} (dA : forall x y : A, {x = y} + {x <> y}) (dB : forall x y : B, {x = y} + {x <> y}) (m : comp A) (phi : A -> B) la a w :
  (forall x y, phi x = phi y -> x = y) -> law dA m la a w -> law dB (cbind m (fun x => ret (phi x))) la (phi a) w.
Proof.
  intros Inj H f c n0 n Hf Hn. rewrite <- (H f c n0 n Hf Hn). apply avg_ext. intros s _ _. unfold contm, cbind, ret. destruct (m (stream s) 0%nat) as [[a' p]| |]; cbn [bind]; [|reflexivity|reflexivity].
  destruct (dB (phi a') (phi a)) as [E|N], (dA a' a) as [E'|N']; try reflexivity; [apply Inj in E; contradiction|subst; contradiction].
Qed.
Lemma law_map_off {A B} (dB : forall x y : B, {x = y} + {x <> y}) (m : comp A) (phi : A -> B) b : (forall x, phi x <> b) -> law dB (cbind m (fun x => ret (phi x))) 0 b 0.
Proof.
  intros Off f c n0 n Hf Hn. rewrite Rmult_0_r, <- (avg_const n 0). apply avg_ext. intros s _ _. unfold contm, cbind, ret. destruct (m (stream s) 0%nat) as [[a' p]| |]; cbn [bind]; try reflexivity.
  destruct (dB (phi a') b) as [E|N]; [exfalso; exact (Off _ E)|reflexivity].
Qed.

(** ** gen_poly *)
Definition zr (M : nat) : list Z := map (fun j => Z.of_nat j - Z.of_nat M)%Z (seq 0 (2 * M + 1)).
Lemma zr_in M v : (Z.abs v <= Z.of_nat M)%Z -> In v (zr M).
Proof. intros H. apply in_map_iff. exists (Z.to_nat (v + Z.of_nat M)). split; [lia|]. apply in_seq. lia. Qed.
Lemma nodup_shift (a : Z) l : NoDup l -> NoDup (map (fun j => Z.of_nat j - a)%Z l).
Proof. intros H. apply Injective_map_NoDup; [intros x y E; lia|exact H]. Qed.
Lemma zr_nodup M : NoDup (zr M). Proof. apply nodup_shift, seq_NoDup. Qed.

Definition z38 : list Z := map (fun j => Z.of_nat j - 18)%Z (seq 0 38).
Lemma z38_in z : (-18 <= z <= 19)%Z <-> In z z38.
Proof. unfold z38. rewrite in_map_iff. split; [intros H; exists (Z.to_nat (z + 18)); split; [lia|apply in_seq; lia]|intros (j & <- & Hj); apply in_seq in Hj; lia]. Qed.
Lemma stream_byte s : bytes s -> forall i, byte (stream s i).
Proof. intros Hs i. unfold stream. destruct (Nat.lt_ge_cases i (length s)) as [L|L]; [unfold bytes in Hs; rewrite Forall_forall in Hs; apply Hs, nth_In, L|rewrite nth_overflow by exact L; unfold byte; lia]. Qed.

Section Gen.
Variable F : fops.
Variables mu sg sm : D F.
Hypothesis TO : forall z, (-18 <= z <= 19)%Z -> to_i32 F (fadd F (fofz F z) (ffloor F mu)) = Ok (0 + z)%Z.
Variable fuel : nat.
Definition one : comp Z := fun g pos => samplerz F fuel mu sg sm g pos.
Lemma one_range g pos z p : (forall i, byte (g i)) -> one g pos = Ok (z, p) -> (-18 <= z <= 19)%Z.
Proof. intros Hg E. destruct (samplerz_range F fuel mu sg sm g pos z p Hg E) as (_ & z' & _ & _ & Hz & T). rewrite TO in T by exact Hz. assert (z = (0 + z')%Z) by congruence. lia. Qed.
Lemma one_sup : ok_bytes one z38.
Proof. intros s a p Hs E. apply z38_in. apply (one_range (stream s) 0 a p); [apply stream_byte, Hs|exact E]. Qed.
Lemma one_shifts : shifts one.
Proof. intros g g' p q H. unfold one, samplerz. apply loop_shift, H. Qed.
(** a sum of k samples *)
Fixpoint gsum (k : nat) (acc : Z) : comp Z := match k with O => ret acc | S m => cbind one (fun z => gsum m (acc + z)%Z) end.
Lemma gsum_shifts k : forall acc, shifts (gsum k acc).
Proof. induction k as [|k IH]; intros acc; cbn [gsum]; [apply shifts_ret|]. apply shifts_bind; [exact one_shifts|intros a; apply IH]. Qed.
Lemma gsum_range k : forall acc g pos v p, (forall i, byte (g i)) -> gsum k acc g pos = Ok (v, p) -> (acc - 18 * Z.of_nat k <= v <= acc + 19 * Z.of_nat k)%Z.
Proof.
  induction k as [|k IH]; intros acc g pos v p Hg E; cbn [gsum] in E; [unfold ret in E; assert (v = acc) by congruence; lia|]. unfold cbind in E. apply bind_Ok in E. destruct E as ([z p1] & E1 & E2).
  apply one_range in E1; [|exact Hg]. apply IH in E2; [|exact Hg]. lia.
Qed.
(** n sums *)
Fixpoint glist (k n : nat) : comp (list Z) := match n with O => ret [] | S m => cbind (gsum k 0) (fun r => cbind (glist k m) (fun l => ret (r :: l))) end.
Definition zl_dec := list_eq_dec Z.eq_dec.
Lemma glist_shifts k n : shifts (glist k n).
Proof. induction n as [|n IH]; cbn [glist]; [apply shifts_ret|]. apply shifts_bind; [apply gsum_shifts|]. intros r. apply shifts_bind; [exact IH|intros l; apply shifts_ret]. Qed.
Variable th : nat -> Z -> Z.
Hypothesis TH : forall z0 b, (z0 < 19)%nat -> (b = 0 \/ b = 1)%Z -> thr F mu sg sm z0 b (th z0 b).
Definition ww : R := 1 - (1 - pa th) ^ fuel.
Hypothesis PA : 0 < pa th.
Definition pp (v : Z) : R := pv th 0 v / pa th.
Lemma one_law v : law Z.eq_dec one (18 * fuel) v (ww * pp v).
Proof.
  intros f c n0 n Hf Hn. rewrite (avg_ext n _ (cont F mu sg sm fuel v f)).
  - rewrite (cont_prob F mu sg sm th 0 TH TO fuel v f c n0 n Hf Hn). unfold ww. rewrite <- geom. unfold pp. field. lra.
  - intros s _ _. unfold contm, cont, one. destruct (samplerz F fuel mu sg sm (stream s) 0) as [[v' p]| |]; [|reflexivity|reflexivity]. destruct (Z.eq_dec v' v), (Z.eqb_spec v' v); try reflexivity; contradiction.
Qed.
Lemma gsum_law k : forall acc v, law Z.eq_dec (gsum k acc) (k * (18 * fuel)) v (ww ^ k * convol pp k (v - acc)).
Proof.
  induction k as [|k IH]; intros acc v; cbn [gsum convol pow].
  - replace (1 * (if (v - acc =? 0)%Z then 1 else 0)) with (if Z.eq_dec acc v then 1 else 0) by (destruct (Z.eq_dec acc v), (Z.eqb_spec (v - acc) 0); try lia; ring). apply law_ret.
  - fold z38. replace (ww * ww ^ k * lsum (fun x => pp x * convol pp k (v - acc - x)) z38) with (lsum (fun x => ww * pp x * (ww ^ k * convol pp k (v - (acc + x)))) z38).
    + change (S k * (18 * fuel))%nat with (18 * fuel + k * (18 * fuel))%nat. apply (law_bind Z.eq_dec Z.eq_dec one (fun z => gsum k (acc + z)%Z) z38 _ _ (fun x => ww * pp x) v (fun x => ww ^ k * convol pp k (v - (acc + x)))).
      * apply nodup_shift, seq_NoDup.
      * exact one_sup.
      * intros a. apply gsum_shifts.
      * intros a _. apply one_law.
      * intros a _. apply IH.
    + rewrite <- lsum_scal. apply lsum_ext. intros x _. replace (v - acc - x)%Z with (v - (acc + x))%Z by lia. ring.
Qed.
Lemma glist_law k n : forall vs, length vs = n -> law zl_dec (glist k n) (n * (k * (18 * fuel))) vs (ww ^ (k * n) * Rprod (map (convol pp k) vs)).
Proof.
  induction n as [|n IH]; intros vs Lv; cbn [glist].
  - destruct vs; [|discriminate]. rewrite Nat.mul_0_r. cbn [pow map]. unfold Rprod. cbn [fold_right].
    assert (E := law_ret zl_dec (@nil Z) []). destruct (zl_dec [] []); [|contradiction]. replace (1 * 1) with 1 by ring. exact E.
  - destruct vs as [|v vs]; [discriminate|]. injection Lv as Lv. cbn [map]. unfold Rprod. cbn [fold_right]. fold (Rprod (map (convol pp k) vs)).
    set (M := (19 * k + Z.to_nat (Z.abs v))%nat).
    replace (ww ^ (k * S n) * (convol pp k v * Rprod (map (convol pp k) vs))) with
      (lsum (fun r => ww ^ k * convol pp k (r - 0) * (if Z.eq_dec r v then ww ^ (k * n) * Rprod (map (convol pp k) vs) else 0)) (zr M)).
    + cbn [Nat.mul]. apply (law_bind Z.eq_dec zl_dec (gsum k 0) (fun r => cbind (glist k n) (fun l => ret (r :: l))) (zr M) _ _ (fun r => ww ^ k * convol pp k (r - 0)) (v :: vs) (fun r => if Z.eq_dec r v then ww ^ (k * n) * Rprod (map (convol pp k) vs) else 0)).
      * apply zr_nodup.
      * intros s a p Hs E. apply zr_in. apply gsum_range in E; [unfold M; lia|apply stream_byte, Hs].
      * intros a. apply shifts_bind; [apply glist_shifts|intros l; apply shifts_ret].
      * intros a _. apply gsum_law.
      * intros a _. destruct (Z.eq_dec a v) as [->|N]; [apply (law_map zl_dec zl_dec _ (cons v)); [intros x y E; injection E; auto|apply IH, Lv]|].
        apply (law_len zl_dec _ 0); [|lia]. apply (law_map_off zl_dec _ (cons a)). intros x E. injection E as E _. contradiction.
    + rewrite (lsum_one _ _ v (zr_nodup M)); [|apply zr_in; unfold M; lia|intros a _ N; destruct (Z.eq_dec a v); [contradiction|ring]].
      destruct (Z.eq_dec v v); [|contradiction]. rewrite Z.sub_0_r, Nat.mul_succ_r, pow_add. ring.
Qed.
End Gen.
