(** P_jtot.v -- the products of discrete Gaussians of P_jprob.v are probability distributions: they sum to 1. *)
From Verif Require Import Base SpecR SpecS SpecG SpecJ M_float M_exact M_samp M_tree P_dist P_gsum P_joint P_prog P_jprob P_tot P_jfin.
From Coq Require Import Lra.
Open Scope R_scope.

Lemma tot_scal {X} (f : X -> R) F k : 0 < k -> tot f F -> tot (fun x => f x * k) (F * k).
Proof.
  intros Hk [U L]. assert (E : forall l, lsum (fun x => f x * k) l = lsum f l * k) by (intros l; induction l as [|x l IH]; unfold lsum in *; cbn [fold_right]; [ring|rewrite IH; ring]).
  split.
  - intros x (l & N & ->). rewrite E. apply Rmult_le_compat_r; [lra|]. apply U. exists l. split; [exact N|reflexivity].
  - intros b Hb. apply Rmult_le_reg_r with (/ k); [apply Rinv_0_lt_compat; exact Hk|]. rewrite Rmult_assoc, Rinv_r, Rmult_1_r by lra. apply L. intros x (l & N & ->).
    apply Rmult_le_reg_r with k; [exact Hk|]. rewrite (Rmult_assoc b), Rinv_l, Rmult_1_r by lra. rewrite <- E. apply Hb. exists l. split; [exact N|reflexivity].
Qed.

Section Id.
Variables (F : fops) (ct sd : D F -> R).
Notation sdp := (sdp F sd). Notation id := (id F ct sd). Notation IV := (IV F ct sd).
Lemma IV_tot mu s : 1 <= sd s <= 18205 / 10000 -> tot (IV mu s) 1.
Proof.
  intros [H1 H2]. destruct (gsum_ok (ct mu) (sd s) H1 H2) as (G & P & _).
  assert (T : tot (fun v => rho (sd s) (ct mu) (IZR v) * / gsum (sd s) (ct mu)) (gsum (sd s) (ct mu) * / gsum (sd s) (ct mu))) by (apply tot_scal; [apply Rinv_0_lt_compat; lra|exact G]).
  rewrite Rinv_r in T by lra. exact T.
Qed.
Lemma NoDup_cons_map (v : Z) (L : list (list Z)) : NoDup L -> NoDup (map (cons v) L).
Proof. intros N. apply NoDup_map_inj; [|exact N]. intros a b E. congruence. Qed.
Lemma NoDup_app' {X} (a b : list X) : NoDup a -> NoDup b -> (forall x, In x a -> In x b -> False) -> NoDup (a ++ b).
Proof.
  induction 1 as [|x a Hx Na IH]; intros Nb D; [exact Nb|]. cbn [app]. constructor.
  - rewrite in_app_iff. intros [H|H]; [exact (Hx H)|]. apply (D x); [left; reflexivity|exact H].
  - apply IH; [exact Nb|]. intros y Hy Hy'. apply (D y); [right; exact Hy|exact Hy'].
Qed.
Lemma id_sum {A} (p : prog F A) L : sdp p -> NoDup L -> lsum (id p) L <= 1.
Proof.
  intros S. revert L. assert (Base : forall (L : list (list Z)) (f : list Z -> R), NoDup L -> f [] = 1 -> (forall v r, f (v :: r) = 0) -> lsum f L <= 1).
  { intros L f N E0 E1. assert (lsum f L <= 1 /\ (~ In [] L -> lsum f L = 0)) as [H _]; [|exact H]. induction N as [|[|v r] L Hx N [IH IH']]; unfold lsum in *; cbn [fold_right].
    - split; [lra|reflexivity].
    - rewrite E0, (IH' Hx). split; [lra|]. intros H. exfalso. apply H. left. reflexivity.
    - rewrite E1, Rplus_0_l. split; [exact IH|]. intros H. apply IH'. intros K. apply H. right. exact K. }
  induction p as [a|mu s c IH|b]; intros L N; [apply Base; [exact N|reflexivity|reflexivity]| |destruct S].
  cbn [P_jprob.sdp] in S. destruct S as [Hs Sc].
  assert (IP : forall v, 0 <= IV mu s v) by (intros v; apply IV_pos; exact Hs).
  (* the values that occur, and the rests for each *)
  assert (G : forall V (L : list (list Z)), NoDup V -> NoDup L -> (forall v r, In (v :: r) L -> In v V) -> lsum (id (Call mu s c)) L <= lsum (IV mu s) V).
  { clear L N. induction V as [|v V IHV]; intros L NV NL Hin.
    - right. assert (Z : forall x, In x L -> id (Call mu s c) x = 0) by (intros [|v r] H; [reflexivity|destruct (Hin v r H)]). clear - Z. unfold lsum. induction L as [|x L IH]; [reflexivity|]. cbn [fold_right]. rewrite (Z x) by (left; reflexivity). rewrite IH by (intros y Hy; apply Z; right; exact Hy). cbn [fold_right]. ring.
    - inversion NV as [|? ? Hv NV']. subst. set (isv := fun x : list Z => match x with u :: _ => Z.eqb u v | [] => false end).
      assert (Sp : lsum (id (Call mu s c)) L = lsum (id (Call mu s c)) (filter isv L) + lsum (id (Call mu s c)) (filter (fun x => negb (isv x)) L)).
      { clear. induction L as [|x L IH]; [unfold lsum; cbn; ring|]. cbn [filter]. destruct (isv x); cbn [negb]; unfold lsum in *; cbn [fold_right]; rewrite IH; ring. }
      rewrite Sp. unfold lsum at 3. cbn [fold_right]. apply Rplus_le_compat.
      + assert (exists R, filter isv L = map (cons v) R /\ NoDup R) as (R & E & NR).
        { exists (map (@tl Z) (filter isv L)). assert (E : filter isv L = map (cons v) (map (@tl Z) (filter isv L))).
          { rewrite map_map. rewrite <- (map_id (filter isv L)) at 1. apply map_ext_in. intros [|u r] H; apply filter_In in H; destruct H as [_ H]; cbn in H; [discriminate|]. apply Z.eqb_eq in H. subst u. reflexivity. }
          split; [exact E|]. assert (NF := NoDup_filter isv NL). rewrite E in NF. apply NoDup_map_inv in NF. exact NF. }
        rewrite E, lsum_map. cbn [P_jprob.id]. rewrite lsum_scal. rewrite <- (Rmult_1_r (IV mu s v)) at 2. apply Rmult_le_compat_l; [apply IP|]. apply IH; [apply Sc|exact NR].
      + apply IHV; [exact NV'|apply NoDup_filter; exact NL|]. intros u r H. apply filter_In in H. destruct H as [H K]. cbn in K. destruct (Hin u r H) as [->|H']; [rewrite Z.eqb_refl in K; discriminate|exact H']. }
  eapply Rle_trans; [apply (G (nodup Z.eq_dec (flat_map (fun x => match x with v :: _ => [v] | [] => [] end) L)) L)|].
  - apply NoDup_nodup.
  - exact N.
  - intros v r H. apply nodup_In, in_flat_map. exists (v :: r). split; [exact H|left; reflexivity].
  - apply IV_sum; [exact Hs|apply NoDup_nodup].
Qed.
Lemma id_tot {A} (p : prog F A) : sdp p -> tot (id p) 1.
Proof.
  intros S. split; [intros x (l & N & ->); apply id_sum; assumption|]. intros b Hb.
  assert (Hb' : forall L, NoDup L -> lsum (id p) L <= b) by (intros L N; apply Hb; exists L; split; [exact N|reflexivity]). clear Hb. revert b Hb'.
  induction p as [a|mu s c IH|u]; intros b Hb; [|destruct S as [Hs Sc]|destruct S].
  - eapply Rle_trans; [|apply (Hb [[]])]; [unfold lsum; cbn; lra|constructor; [intros []|constructor]].
  - assert (IP : forall v, 0 <= IV mu s v) by (intros v; apply IV_pos; exact Hs).
    apply (tot_ub _ 1 b (IV_tot mu s Hs)). intros V NV.
    assert (G : forall V B, NoDup V -> NoDup B -> (forall v r, In v V -> In (v :: r) B -> False) -> lsum (IV mu s) V + lsum (id (Call mu s c)) B <= b).
    { clear V NV. induction V as [|v V IHV]; intros B NV NB D.
      - replace (lsum (IV mu s) []) with 0 by reflexivity. rewrite Rplus_0_l. apply Hb. exact NB.
      - inversion NV as [|? ? Hv NV']. subst. unfold lsum at 1. cbn [fold_right]. fold (lsum (IV mu s) V).
        set (rest := lsum (IV mu s) V + lsum (id (Call mu s c)) B).
        assert (X : forall L, NoDup L -> IV mu s v * lsum (id (c v)) L <= b - rest).
        { intros L NL. assert (Y := IHV (map (cons v) L ++ B) NV'). rewrite lsum_app, lsum_map in Y. cbn [P_jprob.id] in Y. rewrite lsum_scal in Y. unfold rest.
          assert (Z : lsum (IV mu s) V + (IV mu s v * lsum (fun x => id (c v) x) L + lsum (id (Call mu s c)) B) <= b); [|change (fun x => id (c v) x) with (id (c v)) in Z; lra].
          apply Y.
          - apply NoDup_app'; [apply NoDup_cons_map; exact NL|exact NB|]. intros x Hx Hx'. apply in_map_iff in Hx. destruct Hx as (r & <- & _). apply (D v r); [left; reflexivity|exact Hx'].
          - intros u r Hu Hin. apply in_app_iff in Hin. destruct Hin as [Hin|Hin]; [apply in_map_iff in Hin; destruct Hin as (r' & E & _); injection E as -> ->; exact (Hv Hu)|apply (D u r); [right; exact Hu|exact Hin]]. }
        assert (IV mu s v <= b - rest); [|unfold rest in *; lra].
        destruct (Rle_lt_or_eq_dec 0 (IV mu s v) (IP v)) as [P|E].
        + assert (1 <= (b - rest) / IV mu s v); [|apply Rmult_le_reg_r with (/ IV mu s v); [apply Rinv_0_lt_compat; exact P|]; rewrite Rinv_r by lra; exact H].
          apply (IH v (Sc v)). intros L NL. apply Rmult_le_reg_l with (IV mu s v); [exact P|]. replace (IV mu s v * ((b - rest) / IV mu s v)) with (b - rest) by (field; lra). apply X. exact NL.
        + rewrite <- E. specialize (X [] (NoDup_nil _)). unfold lsum at 1 in X. cbn [fold_right] in X. lra. }
    assert (Y := G V [] NV (NoDup_nil _) (fun v r _ H => H)). unfold lsum at 2 in Y. cbn [fold_right] in Y. lra.
Qed.
(** a path of non-zero weight runs to the end *)
Lemma id_path {A} (p : prog F A) : sdp p -> forall vs, id p vs <> 0 -> exists (cs : list (D F * D F * Z)) a, pcalls p cs a /\ map snd cs = vs.
Proof.
  induction p as [a|mu s c IH|u]; intros S vs H.
  - destruct vs as [|v r]; [exists [], a; repeat split|cbn in H; congruence].
  - destruct vs as [|v r]; [cbn in H; congruence|]. cbn [P_jprob.id] in H. destruct S as [_ Sc]. destruct (IH v (Sc v) r) as (cs & a & Hc & E); [intros E; rewrite E, Rmult_0_r in H; congruence|].
    exists ((mu, s, v) :: cs), a. split; [exists v, cs; split; [reflexivity|exact Hc]|cbn; rewrite E; reflexivity].
  - destruct S.
Qed.
End Id.

Section Indexed.
Variables (A X : Type) (p : prog RF A) (e : X -> A) (dom : X -> Prop).
Notation idR := (fun x : R => x).
Hypothesis Hsd : sdp RF idR p.
Hypothesis Hex : forall x, exists cs : list call, pcalls p cs (e x).
Hypothesis Hun : forall x (cs cs' : list call), pcalls p cs (e x) -> pcalls p cs' (e x) -> cs = cs'.
Hypothesis Hinj : forall x y, dom x -> dom y -> e x = e y -> x = y.
Hypothesis Hsur : forall (cs : list call) a, pcalls p cs a -> exists x, dom x /\ a = e x.
Variable I : X -> R.
Hypothesis HI : forall x (cs : list call), pcalls p cs (e x) -> I x = id RF idR idR p (map snd cs).
Lemma idx_pos x : 0 <= I x.
Proof. destruct (Hex x) as [cs Hc]. rewrite (HI x cs Hc). apply id_pos. exact Hsd. Qed.
Lemma idx_total : total dom I 1.
Proof.
  split.
  - intros r (L & NL & DL & ->). destruct (idx_paths _ _ p e dom Hex Hinj L DL NL) as (V & NV & FV). apply Rle_trans with (lsum (id RF idR idR p) V); [|apply id_sum; assumption]. right.
    change (fold_right (fun a r => I a + r) 0 L) with (lsum I L). clear DL NL NV. induction FV as [|x vs L V (cs & Hc & <-) F IH]; [reflexivity|]. unfold lsum. cbn [fold_right]. f_equal; [apply HI; exact Hc|exact IH].
  - intros b Hb. apply (tot_ub _ 1 b (id_tot RF idR idR p Hsd)). intros V NV.
    assert (exists L, NoDup L /\ Forall dom L /\ lsum (id RF idR idR p) V = lsum I L /\ Forall (fun x => forall cs : list call, pcalls p cs (e x) -> In (map snd cs) V) L) as (L & NL & DL & E & _).
    { induction NV as [|vs V Hv NV (L & NL & DL & E & S)]; [exists []; repeat split; constructor|].
      destruct (Req_dec (id RF idR idR p vs) 0) as [E0|N0].
      - exists L. split; [exact NL|]. split; [exact DL|]. split; [unfold lsum in *; cbn [fold_right]; rewrite E0, Rplus_0_l; exact E|]. eapply Forall_impl; [|exact S]. intros x Hx cs Hc. right. apply Hx. exact Hc.
      - destruct (id_path RF idR idR p Hsd vs N0) as (cs & a & Hc & <-). destruct (Hsur cs a Hc) as (x & Dx & ->). exists (x :: L). split; [|split; [|split]].
        + constructor; [|exact NL]. intros Hx. rewrite Forall_forall in S. apply Hv. exact (S x Hx cs Hc).
        + constructor; assumption.
        + unfold lsum in *. cbn [fold_right]. rewrite E, (HI x cs Hc). reflexivity.
        + constructor; [|eapply Forall_impl; [|exact S]; intros y Hy cs' Hc'; right; apply Hy; exact Hc']. intros cs' Hc'. left. rewrite (Hun x cs' cs Hc' Hc). reflexivity. }
    rewrite E. apply Hb. exists L. split; [exact NL|]. split; [exact DL|reflexivity].
Qed.
End Indexed.
