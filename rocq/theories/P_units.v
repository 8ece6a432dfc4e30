(** P_units.v -- how many polynomials modulo q pass the invertibility test. *)
From Verif Require Import Base Ring Spec M_ff P_ff M_xform P_xform P_xring Zq P_brv M_ntt P_ntt P_nttx P_gsum.
Open Scope Z_scope.

(** all vectors of length n with entries 1 .. 12288 *)
Definition digits : list Z := map Z.of_nat (seq 1 (Z.to_nat 12288)).
Fixpoint nz (n : nat) : list (list Z) := match n with O => [[]] | S m => flat_map (fun x => map (cons x) (nz m)) digits end.
Lemma digits_in x : In x digits <-> 1 <= x <= 12288.
Proof.
  unfold digits. rewrite in_map_iff. split.
  - intros (i & <- & Hi). apply in_seq in Hi. lia.
  - intros H. exists (Z.to_nat x). split; [lia|]. apply in_seq. lia.
Qed.
Lemma digits_nodup : NoDup digits.
Proof. apply NoDup_map_inj; [intros x y; apply Nat2Z.inj|apply seq_NoDup]. Qed.
Lemma digits_length : Z.of_nat (length digits) = 12288.
Proof. unfold digits. rewrite map_length, seq_length. lia. Qed.
Lemma nz_length n : Z.of_nat (length (nz n)) = 12288 ^ Z.of_nat n.
Proof.
  induction n as [|n IH]; [reflexivity|]. cbn [nz].
  assert (H : forall l, Z.of_nat (length (flat_map (fun x => map (cons x) (nz n)) l)) = Z.of_nat (length l) * Z.of_nat (length (nz n))).
  { induction l as [|x l IHl]; [reflexivity|]. cbn [flat_map length]. rewrite app_length, map_length, Nat2Z.inj_add, IHl. lia. }
  rewrite H, digits_length, IH, Nat2Z.inj_succ, Z.pow_succ_r by lia. reflexivity.
Qed.
Lemma nz_in n : forall v, In v (nz n) <-> length v = n /\ Forall (fun x => 1 <= x <= 12288) v.
Proof.
  induction n as [|n IH]; intros v; cbn [nz].
  - split; [intros [<-|[]]; split; [reflexivity|constructor]|]. intros [L _]. left. destruct v; [reflexivity|discriminate L].
  - rewrite in_flat_map. split.
    + intros (x & Hx & Hv). apply in_map_iff in Hv. destruct Hv as (w & <- & Hw). apply IH in Hw. destruct Hw as [L Hw]. split; [cbn; lia|]. constructor; [apply digits_in, Hx|exact Hw].
    + intros [L Hv]. destruct v as [|x w]; [discriminate L|]. inversion Hv as [|? ? Hx Hw]. subst. exists x. split; [apply digits_in, Hx|]. apply in_map. apply IH. split; [cbn in L; lia|exact Hw].
Qed.
Lemma nodup_prefixed (W : list (list Z)) : NoDup W -> forall l, NoDup l -> NoDup (flat_map (fun x => map (cons x) W) l).
Proof.
  intros HW. induction 1 as [|x l Hx Hl IH]; [constructor|]. cbn [flat_map].
  assert (D : forall a b : list (list Z), NoDup a -> NoDup b -> (forall v, In v a -> ~ In v b) -> NoDup (a ++ b)).
  { induction a as [|u a IHa]; intros b Ha Hb Hd; [exact Hb|]. inversion Ha. subst. cbn [app]. constructor.
    - rewrite in_app_iff. intros [I|I]; [contradiction|]. apply (Hd u); [left; reflexivity|exact I].
    - apply IHa; [assumption|exact Hb|]. intros v Hv. apply Hd. right. exact Hv. }
  apply D; [apply NoDup_map_inj; [intros u v E; injection E; auto|exact HW]|exact IH|].
  intros v Hv I. apply in_map_iff in Hv. destruct Hv as (w & <- & _). apply in_flat_map in I. destruct I as (y & Hy & I). apply in_map_iff in I. destruct I as (w' & E & _). injection E as -> _. contradiction.
Qed.
Lemma nz_nodup n : NoDup (nz n).
Proof. induction n as [|n IH]; [constructor; [intros []|constructor]|]. cbn [nz]. apply nodup_prefixed; [exact IH|exact digits_nodup]. Qed.
Definition back (lg : nat) (y : list Z) : list Z := match intt lg y with Ok a => a | _ => [] end.
Lemma nz_canon n v : In v (nz n) -> Forall canon v.
Proof. intros H. apply nz_in in H. destruct H as [_ H]. eapply Forall_impl; [|exact H]. intros x Hx. cbv beta in Hx. unfold canon, q. lia. Qed.
Lemma back_ok lg y : falcon_lg lg -> In y (nz (2 ^ lg)) -> length (back lg y) = (2 ^ lg)%nat /\ Forall canon (back lg y) /\ ntt lg (back lg y) = Ok y.
Proof.
  intros Hlg Hy. assert (Cy := nz_canon _ _ Hy). apply nz_in in Hy. destruct Hy as [Ly _].
  destruct (ntt_intt lg y Hlg Ly Cy) as (a & Ea & La & Ca & En). unfold back. rewrite Ea. auto.
Qed.
Lemma canon_small a : Forall canon a -> Forall smallq a.
Proof. intros H. eapply Forall_impl; [|exact H]. intros x Hx. unfold canon, smallq, q in *. lia. Qed.
Lemma nodup_back lg l : falcon_lg lg -> (forall y, In y l -> In y (nz (2 ^ lg))) -> NoDup l -> NoDup (map (back lg) l).
Proof.
  intros Hlg Hs. induction 1 as [|y l Hy Hl IH]; [constructor|]. cbn [map]. constructor; [|apply IH; intros z Hz; apply Hs; right; exact Hz].
  intros I. apply in_map_iff in I. destruct I as (z & E & Hz). apply Hy.
  destruct (back_ok lg y Hlg (Hs y (or_introl eq_refl))) as (_ & _ & N1). destruct (back_ok lg z Hlg (Hs z (or_intror Hz))) as (_ & _ & N2). rewrite E, N1 in N2. injection N2 as ->. exact Hz.
Qed.
Lemma units lg : falcon_lg lg -> exists L, NoDup L /\
  (forall f, In f L <-> length f = (2 ^ lg)%nat /\ Forall canon f /\ is_poly_invertible lg f = Ok true) /\ Z.of_nat (length L) = (q - 1) ^ Z.of_nat (2 ^ lg).
Proof.
  intros Hlg. exists (map (back lg) (nz (2 ^ lg))). split; [apply nodup_back; [exact Hlg|auto|apply nz_nodup]|]. split; [|rewrite map_length; apply nz_length].
  intros f. rewrite in_map_iff. split.
  - intros (y & <- & Hy). destruct (back_ok lg y Hlg Hy) as (La & Ca & En). split; [exact La|]. split; [exact Ca|].
    destruct (is_poly_invertible_ok lg _ Hlg La (canon_small _ Ca)) as (b & E & Hb). rewrite E. f_equal. apply Hb. intros p Hp.
    destruct (ntt_ev lg _ Hlg La Ca) as (u & Eu & Lu & Cu & Pu). rewrite En in Eu. injection Eu as <-. rewrite <- Pu by exact Hp.
    assert (Cy := nz_canon _ _ Hy). apply nz_in in Hy. destruct Hy as [Ly Ry].
    assert (R1 := Forall_nth_lt _ y 0 p Ry ltac:(lia)). cbv beta in R1. assert (R2 := Forall_nth_lt _ y 0 p Cy ltac:(lia)).
    intros X. assert (nth p y 0 = 0); [|lia]. apply canon_toq; [exact R2|unfold canon, q; lia|exact X].
  - intros (La & Ca & E). destruct (is_poly_invertible_ok lg f Hlg La (canon_small _ Ca)) as (b & E' & Hb). rewrite E in E'. injection E' as <-.
    destruct (intt_ntt lg f Hlg La Ca) as (y & Ey & Ly & Cy & Iy). destruct (ntt_ev lg f Hlg La Ca) as (u & Eu & Lu & Cu & Pu). rewrite Ey in Eu. injection Eu as <-.
    exists y. split; [unfold back; rewrite Iy; reflexivity|]. apply nz_in. split; [exact Ly|]. apply Forall_forall. intros x Hx. apply (In_nth _ _ 0) in Hx. destruct Hx as (p & Hp & <-). rewrite Ly in Hp.
    assert (R2 := Forall_nth_lt _ y 0 p Cy ltac:(lia)). unfold canon, q in R2. assert (nth p y 0 <> 0); [|lia].
    intros X. apply (proj1 Hb eq_refl p Hp). rewrite <- Pu by exact Hp. rewrite X. reflexivity.
Qed.
Lemma units_share n : (q - Z.of_nat n) * q ^ Z.of_nat n <= q * (q - 1) ^ Z.of_nat n.
Proof.
  induction n as [|n IH]; [cbn; unfold q; lia|]. rewrite Nat2Z.inj_succ, !Z.pow_succ_r by lia.
  assert (P : 0 <= q ^ Z.of_nat n) by (apply Z.pow_nonneg; unfold q; lia). revert P IH. generalize (q ^ Z.of_nat n) ((q - 1) ^ Z.of_nat n). intros a b P IH. unfold q in *. nia.
Qed.
Lemma units_most lg : falcon_lg lg -> (q - 2 ^ Z.of_nat lg) * q ^ 2 ^ Z.of_nat lg <= q * (q - 1) ^ 2 ^ Z.of_nat lg.
Proof. intros _. assert (H := units_share (2 ^ lg)). rewrite Nat2Z.inj_pow in H. exact H. Qed.
