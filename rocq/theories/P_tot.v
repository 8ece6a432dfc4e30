(** P_tot.v -- sums of non-negative families over countable types, as least upper bounds of finite sums. *)
From Verif Require Import Base Spec SpecG P_prob P_gsum.
From Coq Require Import Reals Lra.
Open Scope R_scope.

Definition tot {X} (f : X -> R) (G : R) : Prop := is_lub (fun x => exists l, NoDup l /\ x = lsum f l) G.

Section Tot.
Context {X : Type}.
Implicit Types f g : X -> R.
Lemma tot_unique f F G : tot f F -> tot f G -> F = G.
Proof. intros [U L] [U' L']. apply Rle_antisym; [apply L, U'|apply L', U]. Qed.
Lemma tot_le f F l : tot f F -> NoDup l -> lsum f l <= F.
Proof. intros [U _] N. apply U. exists l. split; [exact N|reflexivity]. Qed.
Lemma tot_pos f F : tot f F -> 0 <= F.
Proof. intros H. apply (tot_le f F [] H). constructor. Qed.
Lemma tot_ub f F b : tot f F -> (forall l, NoDup l -> lsum f l <= b) -> F <= b.
Proof. intros [_ L] H. apply L. intros x (l & N & ->). apply H, N. Qed.
Lemma tot_ext f g F : (forall x, f x = g x) -> tot f F -> tot g F.
Proof.
  intros E [U L]. split.
  - intros x (l & N & ->). apply U. exists l. split; [exact N|]. apply lsum_ext. intros y _. symmetry. apply E.
  - intros b Hb. apply L. intros x (l & N & ->). apply Hb. exists l. split; [exact N|]. apply lsum_ext. intros y _. apply E.
Qed.
(** existence by domination *)
Lemma tot_dom f g G : (forall x, f x <= g x) -> tot g G -> exists F, tot f F.
Proof.
  intros D TG. destruct (completeness (fun x => exists l, NoDup l /\ x = lsum f l)) as [m Hm].
  - exists G. intros x (l & N & ->). eapply Rle_trans; [apply lsum_le; intros; apply D|]. apply (tot_le g); assumption.
  - exists 0, []. split; [constructor|reflexivity].
  - exists m. exact Hm.
Qed.
End Tot.

(** reindexing by a bijection *)
Lemma tot_bij {X Y} (phi : X -> Y) (psi : Y -> X) (f : Y -> R) F : (forall x, psi (phi x) = x) -> (forall y, phi (psi y) = y) -> tot f F -> tot (fun x => f (phi x)) F.
Proof.
  intros A B [U L]. split.
  - intros x (l & N & ->). apply U. exists (map phi l). split; [|symmetry; apply lsum_map]. apply NoDup_map_inj; [|exact N]. intros a b E. rewrite <- (A a), <- (A b), E. reflexivity.
  - intros b Hb. apply L. intros x (l & N & ->). apply Hb. exists (map psi l). split.
    + apply NoDup_map_inj; [|exact N]. intros a c E. rewrite <- (B a), <- (B c), E. reflexivity.
    + rewrite lsum_map. apply lsum_ext. intros y _. rewrite B. reflexivity.
Qed.

(** disjoint union *)
Definition lefts {X Y} (l : list (X + Y)) : list X := flat_map (fun s => match s with inl x => [x] | inr _ => [] end) l.
Definition rights {X Y} (l : list (X + Y)) : list Y := flat_map (fun s => match s with inl _ => [] | inr y => [y] end) l.
Lemma in_lefts {X Y} (l : list (X + Y)) x : In x (lefts l) <-> In (inl x) l.
Proof. unfold lefts. rewrite in_flat_map. split; [intros ([y|y] & H & K); cbn in K; [destruct K as [->|[]]; exact H|destruct K]|intros H; exists (inl x); split; [exact H|left; reflexivity]]. Qed.
Lemma in_rights {X Y} (l : list (X + Y)) x : In x (rights l) <-> In (inr x) l.
Proof. unfold rights. rewrite in_flat_map. split; [intros ([y|y] & H & K); cbn in K; [destruct K|destruct K as [->|[]]; exact H]|intros H; exists (inr x); split; [exact H|left; reflexivity]]. Qed.
Lemma nodup_lefts {X Y} (l : list (X + Y)) : NoDup l -> NoDup (lefts l).
Proof. induction 1 as [|[x|y] l Hx N IH]; cbn; [constructor| |exact IH]. constructor; [|exact IH]. intros H. apply Hx, (proj1 (in_lefts l x)), H. Qed.
Lemma nodup_rights {X Y} (l : list (X + Y)) : NoDup l -> NoDup (rights l).
Proof. induction 1 as [|[x|y] l Hx N IH]; cbn; [constructor|exact IH|]. constructor; [|exact IH]. intros H. apply Hx, (proj1 (in_rights l y)), H. Qed.
Definition sumf {X Y} (f : X -> R) (g : Y -> R) (s : X + Y) : R := match s with inl x => f x | inr y => g y end.
Lemma lsum_sum {X Y} (f : X -> R) (g : Y -> R) l : lsum (sumf f g) l = lsum f (lefts l) + lsum g (rights l).
Proof. induction l as [|[x|y] l IH]; cbn [lefts rights flat_map app]; [unfold lsum; cbn; ring| |]; unfold lsum in *; cbn [fold_right sumf]; rewrite IH; unfold lefts, rights; ring. Qed.
Lemma tot_sum {X Y} (f : X -> R) (g : Y -> R) F G : tot f F -> tot g G -> tot (sumf f g) (F + G).
Proof.
  intros TF TG. split.
  - intros x (l & N & ->). rewrite lsum_sum. apply Rplus_le_compat; [apply (tot_le f)|apply (tot_le g)]; try assumption; [apply nodup_lefts|apply nodup_rights]; exact N.
  - intros b Hb. assert (K : forall l, NoDup l -> forall l', NoDup l' -> lsum f l + lsum g l' <= b).
    { intros l N l' N'. apply Hb. exists (map inl l ++ map inr l'). split.
      - apply NoDup_app; [apply NoDup_map_inj; [congruence|exact N]|apply NoDup_map_inj; [congruence|exact N']|]. intros s H H'. apply in_map_iff in H, H'. destruct H as (? & <- & _), H' as (? & E & _). discriminate.
      - rewrite lsum_app, !lsum_map. reflexivity. }
    enough (F <= b - G) by lra. apply (tot_ub f); [exact TF|]. intros l N. enough (G <= b - lsum f l) by lra. apply (tot_ub g); [exact TG|]. intros l' N'. specialize (K l N l' N'). lra.
Qed.

(** product *)
Lemma tot_prod {X Y} (f : X -> R) (g : Y -> R) F G : (forall x y : X, {x = y} + {x <> y}) -> (forall x y : Y, {x = y} + {x <> y}) -> (forall x, 0 <= f x) -> (forall y, 0 <= g y) ->
  tot f F -> tot g G -> tot (fun p => f (fst p) * g (snd p)) (F * G).
Proof.
  intros dx dy Pf Pg TF TG.
  assert (LP : forall l l', lsum (fun p => f (fst p) * g (snd p)) (list_prod l l') = lsum f l * lsum g l').
  { induction l as [|x l IH]; intros l'; [cbn; ring|]. cbn [list_prod]. rewrite lsum_app, IH, lsum_map. cbn [fst snd]. rewrite lsum_scal. unfold lsum. cbn [fold_right]. ring. }
  assert (NP : forall (l : list X) (l' : list Y), NoDup l -> NoDup l' -> NoDup (list_prod l l')).
  { intros l l' N N'. induction N as [|x l Hx N IH]; cbn [list_prod]; [constructor|]. apply NoDup_app; [apply NoDup_map_inj; [congruence|exact N']|exact IH|].
    intros [a b] H H'. apply in_map_iff in H. destruct H as (? & E & _). apply in_prod_iff in H'. assert (a = x) by congruence. subst a. tauto. }
  assert (F0 := tot_pos f F TF). assert (G0 := tot_pos g G TG). split.
  - intros x (l & N & ->). set (l1 := nodup dx (map fst l)). set (l2 := nodup dy (map snd l)).
    apply Rle_trans with (lsum (fun p => f (fst p) * g (snd p)) (list_prod l1 l2)).
    + apply lsum_incl; [decide equality|intros p; apply Rmult_le_pos; [apply Pf|apply Pg]|exact N|]. intros [a b] H. left. apply in_prod; apply nodup_In, in_map_iff; exists (a, b); split; (reflexivity || exact H).
    + rewrite LP. apply Rmult_le_compat; [apply lsum_pos, Pf|apply lsum_pos, Pg|apply (tot_le f); [exact TF|apply NoDup_nodup]|apply (tot_le g); [exact TG|apply NoDup_nodup]].
  - intros b Hb. assert (K : forall l, NoDup l -> forall l', NoDup l' -> lsum f l * lsum g l' <= b). { intros l N l' N'. rewrite <- LP. apply Hb. exists (list_prod l l'). split; [apply NP; assumption|reflexivity]. }
    assert (b0 : 0 <= b) by (assert (X0 := K [] ltac:(constructor) [] ltac:(constructor)); cbn in X0; lra).
    assert (K1 : forall l, NoDup l -> lsum f l * G <= b).
    { intros l N. destruct (Rle_lt_or_eq_dec 0 (lsum f l) (lsum_pos f l Pf)) as [P|E]; [|rewrite <- E; lra]. apply Rmult_le_reg_l with (/ lsum f l); [apply Rinv_0_lt_compat, P|]. rewrite <- Rmult_assoc, Rinv_l, Rmult_1_l by lra.
      apply (tot_ub g); [exact TG|]. intros l' N'. apply Rmult_le_reg_l with (lsum f l); [exact P|]. rewrite <- Rmult_assoc, Rinv_r, Rmult_1_l by lra. apply K; assumption. }
    destruct (Rle_lt_or_eq_dec 0 G G0) as [P|E]; [|rewrite <- E; lra]. apply Rmult_le_reg_l with (/ G); [apply Rinv_0_lt_compat, P|]. replace (/ G * (F * G)) with F by (field; lra).
    apply (tot_ub f); [exact TF|]. intros l N. apply Rmult_le_reg_l with G; [exact P|]. rewrite <- Rmult_assoc, Rinv_r, Rmult_1_l by lra. rewrite Rmult_comm. apply K1, N.
Qed.
