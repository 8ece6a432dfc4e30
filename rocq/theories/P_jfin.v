(** P_jfin.v -- programs whose outcomes are indexed by a set. *)
From Verif Require Import Base Ring Poly Spec SpecR SpecS SpecG SpecJ M_ff M_xform P_xform M_codec P_codec M_sig M_verify M_float M_exact P_exact M_samp M_fft M_ntru P_ntru M_tree P_tree P_brv P_cplx P_fft P_treex P_gs P_leaf P_sign P_signb P_signx P_signv P_norm P_normx P_defx.
From Verif Require Import P_prob P_dist P_joint P_gsum P_prog P_jprob P_pnorm P_pdef.
From Coq Require Import Lra.
Open Scope R_scope.

Lemma is_fft_ok lg z a : is_fft lg z a = true <-> z = values lg (map Cz a).
Proof. unfold is_fft. destruct (list_eq_dec Cx_eq_dec z (values lg (map Cz a))); split; congruence. Qed.

(** ** a real from a unique description *)
Lemma unique_real (E : R -> Prop) : (exists x, E x) -> (forall x y, E x -> E y -> x = y) -> {x : R | E x}.
Proof.
  intros Ex Un. destruct (completeness E) as [m Hm].
  - destruct Ex as [x Hx]. exists x. intros y Hy. right. apply Un; assumption.
  - exact Ex.
  - exists m. destruct Ex as [x Hx]. replace m with x; [exact Hx|]. destruct Hm as [U L]. apply Rle_antisym; [apply U, Hx|]. apply L. intros y Hy. right. apply Un; assumption.
Qed.

Lemma four (a b c d : R) : a / b * (c / d) = a * c / (b * d).
Proof. unfold Rdiv. rewrite Rinv_mult. ring. Qed.

(** ** programs whose outcomes are indexed by X *)
Section Indexed.
Variables (smin : R) (A X : Type) (p : prog RF A) (e : X -> A) (dom : X -> Prop) (tst : X -> A -> bool) (d : nat).
Notation idR := (fun x : R => x).
Hypothesis Hlaw : lawp RF smin idR idR (thx smin) p.
Hypothesis Hsd : sdp RF idR p.
Hypothesis Hd : deep RF d p.
Hypothesis Hex : forall x, exists cs : list call, pcalls p cs (e x).
Hypothesis Hun : forall x (cs cs' : list call), pcalls p cs (e x) -> pcalls p cs' (e x) -> cs = cs'.
Hypothesis Hinj : forall x y, dom x -> dom y -> e x = e y -> x = y.
Hypothesis Htst : forall x a, dom x -> (tst x a = true <-> a = e x).
Hypothesis Hlen : forall x (cs : list call), pcalls p cs (e x) -> length cs = d.

Lemma ideal_fun : {I : X -> R | forall x (cs : list call), pcalls p cs (e x) -> I x = id RF idR idR p (map snd cs)}.
Proof.
  assert (U : forall x, {r : R | exists cs : list call, pcalls p cs (e x) /\ r = id RF idR idR p (map snd cs)}).
  { intros x. apply unique_real.
    - destruct (Hex x) as [cs Hcs]. exists (id RF idR idR p (map snd cs)), cs. split; [exact Hcs|reflexivity].
    - intros r r' (cs & Hc & ->) (cs' & Hc' & ->). rewrite (Hun x cs cs' Hc Hc'). reflexivity. }
  exists (fun x => proj1_sig (U x)). intros x cs Hcs. destruct (U x) as [r (cs' & Hc' & Er)]. cbn [proj1_sig]. rewrite Er, (Hun x cs' cs Hc' Hcs). reflexivity.
Qed.
Lemma idx_prob k n x (cs : list call) : dom x -> (18 * k * d <= n)%nat -> pcalls p cs (e x) ->
  prob n (fun w => ends_with (tst x) (@run RF smin _ k (stream w) p 0)) = pr RF idR (thx smin) k p (map snd cs).
Proof.
  intros Dx Hn Hcs. apply prob_path with (1 := Hlaw).
  - assert (E : length (map snd cs) = d) by (rewrite map_length; exact (Hlen x cs Hcs)). change (18 * k * length (map (@snd (R * R) Z) cs) <= n)%nat. rewrite E. exact Hn.
  - intros cs' a Ha. rewrite (Htst x a Dx). split.
    + intros ->. rewrite (Hun x cs' cs Ha Hcs). reflexivity.
    + intros Em. destruct (pcalls_fun RF p cs' cs a (e x) Ha Hcs Em) as [_ ->]. reflexivity.
Qed.
Lemma idx_paths L : Forall dom L -> NoDup L -> exists V, NoDup V /\ Forall2 (fun x vs => exists cs : list call, pcalls p cs (e x) /\ map snd cs = vs) L V.
Proof.
  induction L as [|x L IH]; intros Dl Nl; [exists []; split; constructor|]. inversion Dl as [|? ? Dx Dl']. subst. inversion Nl as [|? ? Nx Nl']. subst.
  destruct (IH Dl' Nl') as (V & NV & FV). destruct (Hex x) as [cs Hcs]. exists (map snd cs :: V). split; [|constructor; [exists cs; split; [exact Hcs|reflexivity]|exact FV]].
  constructor; [|exact NV]. intros Hin. apply Nx. revert Dl' Hin. clear - FV Hcs Dx Hinj. induction FV as [|y vs L V (cs' & Hy & Ey) F IH]; intros Dl Hin; [destruct Hin|]. inversion Dl as [|? ? Dy Dl']. subst.
  destruct Hin as [E|Hin]; [|right; apply IH; assumption]. left. apply Hinj; [exact Dy|exact Dx|]. destruct (pcalls_fun RF p cs' cs _ _ Hy Hcs E) as [_ E']. exact E'.
Qed.
Lemma idx_tv (I : X -> R) : (forall x (cs : list call), pcalls p cs (e x) -> I x = id RF idR idR p (map snd cs)) -> forall k n L, (18 * k * d <= n)%nat -> Forall dom L -> NoDup L ->
  lsum (fun x => Rabs (prob n (fun w => ends_with (tst x) (@run RF smin _ k (stream w) p 0)) - I x)) L <= INR d * (/ 2 ^ 35 + (11 / 12) ^ k).
Proof.
  intros HI k n L Hn Dl Nl. destruct (idx_paths L Dl Nl) as (V & NV & FV). assert (B := path_tv RF smin idR idR (thx smin) k p V d Hlaw Hsd Hd NV). unfold eps in B.
  eapply Rle_trans; [|exact B]. right. clear B NV Nl. revert Dl. induction FV as [|x vs L V (cs & Hc & <-) F IH]; intros Dl; [reflexivity|]. inversion Dl as [|? ? Dx Dl']. subst.
  unfold lsum. cbn [fold_right]. f_equal; [|apply IH; exact Dl']. rewrite (idx_prob k n x cs Dx Hn Hc), (HI x cs Hc). reflexivity.
Qed.
Lemma id_energy : forall (q : prog RF A) (cs : list call) a, sdp RF idR q -> pcalls q cs a ->
  id RF idR idR q (map snd cs) = exp (- energy cs) / Rprod (map (fun c => gsum (stddev c) (centre c)) cs).
Proof.
  clear. induction q as [b|mu s c IH|u]; intros cs a Sq H; cbn [pcalls] in H; [|destruct H as (z & r & -> & H)|tauto].
  - destruct H as [-> ->]. cbn. rewrite Ropp_0, exp_0. lra.
  - cbn [sdp] in Sq. destruct Sq as [Ss Sq]. cbn [map snd id]. rewrite (IH z r a (Sq z) H). unfold IV.
    change (energy ((mu, s, z) :: r)) with ((IZR z - mu) * (IZR z - mu) / (2 * (s * s)) + energy r).
    unfold Rprod. cbn [map fold_right stddev centre fst snd]. fold (Rprod (map (fun c : call => gsum (stddev c) (centre c)) r)). rewrite Ropp_plus_distr, exp_plus. unfold rho.
    replace ((IZR z - mu) ^ 2 / (2 * s ^ 2)) with ((IZR z - mu) * (IZR z - mu) / (2 * (s * s))) by (unfold Rdiv; f_equal; [ring|f_equal; ring]).
    apply (four (exp (- ((IZR z - mu) * (IZR z - mu) / (2 * (s * s))))) (gsum s mu) (exp (- energy r)) (Rprod (map (fun c0 : call => gsum (stddev c0) (centre c0)) r))).
Qed.
End Indexed.
