(** P_prog.v -- ff_sampling as a tree of calls of samplerz, for any floating point behaviour. *)
From Verif Require Import Base Spec M_ff M_xform M_ntt M_codec M_float M_samp M_fft M_ntru M_tree.
Open Scope nat_scope.

Section Prog.
Variable F : fops.
Notation C := (D F * D F)%type.
Inductive prog (A : Type) : Type :=
  | Ret (a : A)
  | Call (mu s : D F) (k : Z -> prog A)
  | Stop (ub : bool).
Arguments Ret {A} a. Arguments Call {A} mu s k. Arguments Stop {A} ub.
Definition lift {A} (r : res A) : prog A := match r with Ok a => Ret a | UB => Stop true | Fuel => Stop false end.
Fixpoint pbind {A B} (p : prog A) (k : A -> prog B) : prog B :=
  match p with Ret a => k a | Call mu s c => Call mu s (fun z => pbind (c z) k) | Stop b => Stop b end.
Variable smin : D F.
Fixpoint run {A} (fuel : nat) (g : rng_t) (p : prog A) (pos : nat) : res (A * nat) :=
  match p with
  | Ret a => Ok (a, pos)
  | Call mu s c => '(z, pos) <- samplerz F fuel mu s smin g pos ;; run fuel g (c z) pos
  | Stop b => if b then UB else Fuel
  end.
Lemma run_bind {A B} fuel g (p : prog A) (k : A -> prog B) pos : run fuel g (pbind p k) pos = ('(a, pos) <- run fuel g p pos ;; run fuel g (k a) pos).
Proof.
  revert pos. induction p as [a|mu s c IH|b]; intros pos; cbn [pbind run bind]; [reflexivity| |destruct b; reflexivity].
  destruct (samplerz F fuel mu s smin g pos) as [[z p']| |]; cbn [bind]; [apply IH|reflexivity|reflexivity].
Qed.
Lemma run_lift {A B} fuel g (r : res A) (k : A -> prog B) pos : run fuel g (pbind (lift r) k) pos = (a <- r ;; run fuel g (k a) pos).
Proof. destruct r; reflexivity. Qed.

(** the calls on the way to a result: centre, deviation, value *)
Fixpoint pcalls {A} (p : prog A) (cs : list (D F * D F * Z)) (a : A) : Prop :=
  match p with
  | Ret b => cs = [] /\ a = b
  | Call mu s c => exists z r, cs = (mu, s, z) :: r /\ pcalls (c z) r a
  | Stop _ => False
  end.
Lemma pcalls_bind {A B} (p : prog A) (k : A -> prog B) cs b : pcalls (pbind p k) cs b <-> exists c1 a c2, cs = c1 ++ c2 /\ pcalls p c1 a /\ pcalls (k a) c2 b.
Proof.
  revert cs. induction p as [a|mu s c IH|u]; intros cs; cbn [pbind pcalls].
  - split; [intros H; exists [], a, cs; auto|]. intros (c1 & a' & c2 & -> & [-> ->] & H). exact H.
  - split.
    + intros (z & r & -> & H). apply IH in H. destruct H as (c1 & a & c2 & -> & H1 & H2). exists ((mu, s, z) :: c1), a, c2. split; [reflexivity|]. split; [|exact H2]. exists z, c1. auto.
    + intros (c1 & a & c2 & -> & (z & r & -> & H1) & H2). exists z, (r ++ c2). split; [reflexivity|]. apply IH. exists r, a, c2. auto.
  - split; [tauto|]. intros (c1 & a' & c2 & _ & [] & _).
Qed.
Lemma pcalls_lift {A B} (r : res A) (k : A -> prog B) cs b : pcalls (pbind (lift r) k) cs b <-> exists a, r = Ok a /\ pcalls (k a) cs b.
Proof.
  destruct r; cbn [lift pbind pcalls]; split; try tauto; try (intros (a' & E & _); discriminate).
  - intros H. exists a. auto.
  - intros (a' & E & H). injection E as ->. exact H.
Qed.
(** a result is determined by the values *)
Lemma pcalls_fun {A} (p : prog A) cs cs' a a' : pcalls p cs a -> pcalls p cs' a' -> map snd cs = map snd cs' -> cs = cs' /\ a = a'.
Proof.
  revert cs cs'. induction p as [b|mu s c IH|u]; intros cs cs'; cbn [pcalls]; [intros [-> ->] [-> ->] _; auto| |tauto].
  intros (z & r & -> & H) (z' & r' & -> & H') E. cbn [map snd] in E. assert (z' = z) by congruence. subst z'. assert (E' : map snd r = map snd r') by congruence.
  destruct (IH z r r' H H' E') as [-> ->]. auto.
Qed.

Variable ztab : list C.
Variable T : list C.
Fixpoint ff_prog (h lvl : nat) (t0 t1 : list C) (off : nat) : prog (list C * list C) :=
  let N := 2 ^ h in
  let tree_off := 2 ^ lvl * N in
  match h with
  | O =>
    pbind (lift (rd T off)) (fun x => pbind (lift (rd t0 0)) (fun a => Call (fst a) (fst x) (fun z0 => pbind (lift (rd t1 0)) (fun b => Call (fst b) (fst x) (fun z1 =>
      Ret ([cof F (fofz F z0)], [cof F (fofz F z1)]))))))
  | S h' =>
    pbind (lift (rds T off N)) (fun l =>
    let Tl := off + tree_off in
    let Tr := Tl + N / 2 in
    pbind (lift (split_fft F ztab h t1 (fresh F (N / 2)) (fresh F (N / 2)))) (fun t =>
    pbind (ff_prog h' (S lvl) (fst t) (snd t) Tr) (fun zr =>
    pbind (lift (
      merged_z1 <- merge_fft F ztab h (fst zr) (snd zr) (fresh F N) ;;
      tmp0 <- cpoly_sub F h t1 merged_z1 (fresh F N) ;;
      tmp1 <- cpoly_mul F h tmp0 l (fresh F N) ;;
      tmp0 <- cpoly_add F h t0 tmp1 tmp0 ;;
      '(t0_0, t0_1) <- split_fft F ztab h tmp0 (fresh F (N / 2)) (fresh F (N / 2)) ;; Ok (merged_z1, t0_0, t0_1))) (fun u =>
    pbind (ff_prog h' (S lvl) (snd (fst u)) (snd u) Tl) (fun zl =>
    pbind (lift (merge_fft F ztab h (fst zl) (snd zl) (fresh F N))) (fun merged_z0 =>
    Ret (merged_z0, fst (fst u))))))))
  end.
Lemma run_ff fuel g h : forall lvl t0 t1 off pos, ff_sampling F ztab fuel h lvl t0 t1 T off smin g pos =
  ('(z, p) <- run fuel g (ff_prog h lvl t0 t1 off) pos ;; Ok (fst z, snd z, p)).
Proof.
  induction h as [|h IH]; intros lvl t0 t1 off pos; cbn [ff_sampling ff_prog].
  - rewrite run_lift. destruct (rd T off) as [x| |]; cbn [bind]; [|reflexivity|reflexivity]. rewrite run_lift. destruct (rd t0 0) as [a| |]; cbn [bind run]; [|reflexivity|reflexivity].
    destruct (samplerz F fuel (fst a) (fst x) smin g pos) as [[z0 p0]| |]; cbn [bind]; [|reflexivity|reflexivity]. rewrite run_lift. destruct (rd t1 0) as [b| |]; cbn [bind run]; [|reflexivity|reflexivity].
    destruct (samplerz F fuel (fst b) (fst x) smin g p0) as [[z1 p1]| |]; reflexivity.
  - rewrite run_lift. destruct (rds T off (2 ^ S h)) as [l| |]; cbn [bind]; [|reflexivity|reflexivity]. rewrite run_lift.
    destruct (split_fft F ztab (S h) t1 _ _) as [[t10 t11]| |]; cbn [bind]; [|reflexivity|reflexivity]. rewrite run_bind, IH. cbn [fst snd].
    match goal with |- bind (bind ?e _) _ = _ => destruct e as [[zr p1]| |] end; cbn [bind]; [|reflexivity|reflexivity]. rewrite run_lift.
    destruct (merge_fft F ztab (S h) (fst zr) (snd zr) _) as [m1| |]; cbn [bind]; [|reflexivity|reflexivity].
    destruct (cpoly_sub F (S h) t1 m1 _) as [a1| |]; cbn [bind]; [|reflexivity|reflexivity]. destruct (cpoly_mul F (S h) a1 l _) as [a2| |]; cbn [bind]; [|reflexivity|reflexivity].
    destruct (cpoly_add F (S h) t0 a2 a1) as [a3| |]; cbn [bind]; [|reflexivity|reflexivity]. destruct (split_fft F ztab (S h) a3 _ _) as [[t00 t01]| |]; cbn [bind]; [|reflexivity|reflexivity].
    rewrite run_bind, IH. cbn [fst snd]. match goal with |- bind (bind ?e _) _ = _ => destruct e as [[zl p2]| |] end; cbn [bind]; [|reflexivity|reflexivity]. rewrite run_lift.
    destruct (merge_fft F ztab (S h) (fst zl) (snd zl) _) as [m0| |]; reflexivity.
Qed.
End Prog.
Arguments Ret {F A} a. Arguments Call {F A} mu s k. Arguments Stop {F A} ub.
Arguments lift {F A} r. Arguments pbind {F A B} p k. Arguments run {F} smin {A} fuel g p pos. Arguments pcalls {F A} p cs a.
