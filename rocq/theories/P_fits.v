(** P_fits.v -- signing nearly always ends with a signature, and nearly always at the first pass. *)
From Verif Require Import Base Spec SpecR SpecS SpecG SpecJ SpecH SpecM M_ff M_codec M_ntt M_sig M_verify M_float M_exact M_samp M_fft M_ntru M_tree P_sig P_prob P_gsum P_jprob P_jgauss P_jkey P_jcoset P_kubx P_hash P_loop P_loopk P_loops P_widek P_sim P_fitm.
From Verif Require P_gs P_treex P_sign P_signx P_genlaw P_key P_verifyx.
From Coq Require Import Lra.
Open Scope R_scope.
Notation pairN lg := (fun s : list Z * list Z => length (fst s) = (2 ^ lg)%nat /\ length (snd s) = (2 ^ lg)%nat).
Notation wts lg s := (exp (- (IZR (sqnorm (fst s) + sqnorm (snd s)) / (2 * (sigma_value RF lg * sigma_value RF lg))))).

Lemma hkey_in lg h s : In (hkey lg h s) (polys (2 ^ lg)).
Proof.
  apply polys_in. split; [apply tab_length|]. apply Forall_forall. intros x Hx. unfold hkey, tab in Hx. apply in_map_iff in Hx. destruct Hx as (i & <- & _). unfold canon. apply Z.mod_pos_bound. unfold q. lia.
Qed.
(** ** the vectors that are too long, all hashes together *)
Lemma long_all lg (Hlg : falcon_lg lg) f g F_ G_ h0 h : sound_key lg f g F_ G_ -> length h0 = (2 ^ lg)%nat -> compute_public_key lg f g h0 = Ok h ->
  forall WT, total (pairN lg) (fun s => wts lg s) WT -> forall L, NoDup L -> Forall (fun s => pairN lg s /\ shortb lg s = false) L -> lsum (fun s => wts lg s) L <= (981 / 1000) ^ (2 ^ lg) * WT.
Proof.
  intros HS Lh HK WT TWT L NL DL.
  assert (EX : forall c, In c (polys (2 ^ lg)) -> exists W, total (coset lg c h) (fun s => wts lg s) W /\ (forall L, NoDup L -> Forall (fun s => coset lg c h s /\ shortb lg s = false) L -> lsum (fun s => wts lg s) L <= (981 / 1000) ^ (2 ^ lg) * W)).
  { intros c Hc. apply polys_in in Hc. destruct Hc as [Lc Cc]. destruct (sound_data lg Hlg f g F_ G_ c HS Lc) as (B & T0 & T & t0 & t1 & LT & HB & HT & Ht).
    destruct (long_sum lg Hlg f g F_ G_ HS h0 h Lh HK B T0 T LT HB HT c t0 t1 Lc Cc Ht) as (W & _ & TW & HL & _). exists W. split; assumption. }
  destruct (choose (list_eq_dec Z.eq_dec) _ _ EX) as [W HW].
  assert (EW : WT = lsum W (polys (2 ^ lg))).
  { refine (total_unique _ _ _ _ TWT _). apply (total_iff (fun x => pairN lg x /\ In (hkey lg h x) (polys (2 ^ lg)))).
    - intros s. split; [intros [H _]; exact H|]. intros H. split; [exact H|apply hkey_in].
    - apply (total_keys (list_eq_dec Z.eq_dec) (hkey lg h)); [apply polys_nodup|]. intros c Hc. destruct (HW c Hc) as [T' _]. apply polys_in in Hc. destruct Hc as [L' C'].
      apply (total_iff (coset lg c h)); [|exact T']. intros s. apply coset_key; assumption. }
  rewrite EW, <- lsum_scal. rewrite (lsum_keys (list_eq_dec Z.eq_dec) (hkey lg h) _ (polys (2 ^ lg)) L (polys_nodup _)) by (intros; apply hkey_in).
  apply lsum_le. intros c Hc. destruct (HW c Hc) as [_ HL]. apply HL; [apply NoDup_filter; exact NL|]. apply polys_in in Hc. destruct Hc as [L' C']. rewrite Forall_forall in DL. apply Forall_forall. intros s Hs. apply in_at_key in Hs. destruct Hs as [Hs E].
  destruct (DL s Hs) as [P S]. split; [|exact S]. apply coset_key; [exact L'|exact C'|]. split; assumption.
Qed.

(** ** the vectors that signing accepts, all hashes together *)
Definition fitb (lg : nat) (s : list Z * list Z) : bool := (Spec.tot (snd s) <? body_len lg)%Z.
Lemma good_list lg : exists LS, NoDup LS /\ forall s, In s LS <-> pairN lg s /\ shortb lg s = true /\ fitb lg s = true.
Proof.
  set (M := Z.to_nat (beta2 lg)). exists (nodup pair_dec (filter (fun s => (Nat.eqb (length (fst s)) (2 ^ lg) && Nat.eqb (length (snd s)) (2 ^ lg)) && (shortb lg s && fitb lg s)) (list_prod (cube M (2 ^ lg)) (cube M (2 ^ lg))))).
  split; [apply NoDup_nodup|]. intros s. rewrite nodup_In, filter_In, !Bool.andb_true_iff, !Nat.eqb_eq. split; [tauto|]. intros ((L1 & L2) & Sh & Ft). split; [|tauto].
  unfold shortb in Sh. apply Z.leb_le in Sh. assert (P1 := P_signx.sqnorm_pos (fst s)). assert (P2 := P_signx.sqnorm_pos (snd s)). destruct s as [s1 s2]. cbn [fst snd] in *. apply in_prod; apply cube_in; try assumption; apply coeff_sqrt; lia.
Qed.
Lemma good_mass lg (Hlg : falcon_lg lg) f g F_ G_ h0 h : sound_key lg f g F_ G_ -> length h0 = (2 ^ lg)%nat -> compute_public_key lg f g h0 = Ok h ->
  forall WT, total (pairN lg) (fun s => wts lg s) WT -> forall LS, NoDup LS -> (forall s, In s LS <-> pairN lg s /\ shortb lg s = true /\ fitb lg s = true) ->
  forall (nice : list Z * list Z -> bool) loss, (forall L, NoDup L -> Forall (fun s => pairN lg s /\ nice s = false) L -> lsum (fun s => wts lg s) L <= loss * WT) ->
  (1 - (981 / 1000) ^ (2 ^ lg) - unfit lg - loss) * WT <= lsum (fun s => wts lg s) (filter nice LS).
Proof.
  intros HS Lh HK WT TWT LS NS DS nice loss HL.
  enough (WT <= lsum (fun s => wts lg s) (filter nice LS) + loss * WT + (981 / 1000) ^ (2 ^ lg) * WT + unfit lg * WT) by lra.
  apply (total_ub _ _ _ _ TWT). intros L NL DL. rewrite (lsum_part (shortb lg)), (lsum_part (fitb lg) _ (filter (shortb lg) L)), (lsum_part nice _ (filter (fitb lg) (filter (shortb lg) L))). rewrite Forall_forall in DL.
  assert (A1 : lsum (fun s => wts lg s) (filter (fun s => negb (shortb lg s)) L) <= (981 / 1000) ^ (2 ^ lg) * WT).
  { apply (long_all lg Hlg f g F_ G_ h0 h HS Lh HK WT TWT); [apply NoDup_filter; exact NL|]. apply Forall_forall. intros s Hs. apply filter_In in Hs. destruct Hs as [Hs E]. split; [apply DL, Hs|]. destruct (shortb lg s); [discriminate|reflexivity]. }
  assert (A2 : lsum (fun s => wts lg s) (filter (fun s => negb (fitb lg s)) (filter (shortb lg) L)) <= unfit lg * WT).
  { apply (unfit_mass lg Hlg WT TWT); [apply NoDup_filter, NoDup_filter; exact NL|]. apply Forall_forall. intros s Hs. apply filter_In in Hs. destruct Hs as [Hs E]. apply filter_In in Hs. destruct Hs as [Hs _]. split; [apply DL, Hs|].
    unfold fitb in E. destruct (Spec.tot (snd s) <? body_len lg)%Z eqn:El; [discriminate|]. apply Z.ltb_ge in El. exact El. }
  assert (A3 : lsum (fun s => wts lg s) (filter nice (filter (fitb lg) (filter (shortb lg) L))) <= lsum (fun s => wts lg s) (filter nice LS)).
  { apply lsum_incl; [exact pair_dec|intros s; left; apply exp_pos|apply NoDup_filter, NoDup_filter, NoDup_filter; exact NL|]. intros s Hs. left. apply filter_In in Hs. destruct Hs as [Hs En]. apply filter_In. split; [|exact En]. apply filter_In in Hs. destruct Hs as [Hs E]. apply filter_In in Hs. destruct Hs as [Hs E']. apply DS. split; [apply DL, Hs|]. split; assumption. }
  assert (A4 : lsum (fun s => wts lg s) (filter (fun s => negb (nice s)) (filter (fitb lg) (filter (shortb lg) L))) <= loss * WT).
  { apply HL; [apply NoDup_filter, NoDup_filter, NoDup_filter; exact NL|]. apply Forall_forall. intros s Hs. apply filter_In in Hs. destruct Hs as [Hs E]. apply filter_In in Hs. destruct Hs as [Hs _]. apply filter_In in Hs. destruct Hs as [Hs _]. split; [apply DL, Hs|]. destruct (nice s); [discriminate|reflexivity]. }
  lra.
Qed.

(** ** events that exclude each other *)
Lemma prob_disjoint {A} (dec : forall x y : A, {x = y} + {x <> y}) n (E : list Z -> bool) (H : list Z -> res A) C : NoDup C ->
  lsum (fun c => prob n (fun v => match H v with Ok c' => if dec c' c then true else false | _ => false end && E v)) C <= prob n E.
Proof.
  intros NC. rewrite prob_avg. rewrite (lsum_ext _ (fun c => avg n (fun v => P_prob.ind (match H v with Ok c' => if dec c' c then true else false | _ => false end && E v)))) by (intros; apply prob_avg).
  rewrite <- (P_genlaw.avg_lsum n (fun c v => P_prob.ind (match H v with Ok c' => if dec c' c then true else false | _ => false end && E v)) C). apply avg_mono. intros v _ _. cbv beta.
  assert (Z0 : forall D : list A, lsum (fun _ => 0) D = 0) by (induction D as [|d D IH]; [reflexivity|]; unfold lsum in *; cbn [fold_right]; rewrite IH; ring).
  destruct (H v) as [c'| |]; [|cbn [andb P_prob.ind]; rewrite Z0; destruct (E v); cbn; lra|cbn [andb P_prob.ind]; rewrite Z0; destruct (E v); cbn; lra].
  destruct (E v); [|rewrite (lsum_ext _ (fun _ => 0)) by (intros c _; rewrite Bool.andb_false_r; reflexivity); rewrite Z0; cbn; lra].
  rewrite (lsum_ext _ (fun c => P_prob.ind (if dec c c' then true else false) * 1)).
  - rewrite lsum_pick by exact NC. cbn [P_prob.ind]. destruct (in_dec _ _ _); lra.
  - intros c _. rewrite Bool.andb_true_r. destruct (dec c' c), (dec c c'); cbn [P_prob.ind]; try ring; exfalso; congruence.
Qed.
Lemma lsum_ge {X} (P w : X -> R) (W e b : R) L : 0 < W -> lsum (fun s => Rabs (P s - w s / W)) L <= e -> b * W <= lsum w L -> b - e <= lsum P L.
Proof.
  intros W0 H1 H2. assert (N1 := lsum_near P (fun s => w s / W) L). cbv beta in N1.
  assert (E : lsum (fun s => w s / W) L = lsum w L / W) by (unfold Rdiv; rewrite (lsum_ext _ (fun s => / W * w s)) by (intros; apply Rmult_comm); rewrite lsum_scal; apply Rmult_comm).
  assert (B : b <= lsum w L / W). { apply (Rmult_le_reg_r W); [exact W0|]. unfold Rdiv. rewrite Rmult_assoc, Rinv_l, Rmult_1_r by lra. exact H2. }
  lra.
Qed.

Notation wire lg s := (encs (snd s) ++ repeat false (Z.to_nat (body_len lg - Spec.tot (snd s)))).
(** an event that happens whenever sign returns the encoding of an accepted vector with the property nice *)
Lemma sign_test lg (Hlg : falcon_lg lg) f g F_ G_ h0 h : sound_key lg f g F_ G_ -> length h0 = (2 ^ lg)%nat -> compute_public_key lg f g h0 = Ok h ->
  forall (nice : list Z * list Z -> bool) loss, (forall WT, total (pairN lg) (fun s => wts lg s) WT -> forall L, NoDup L -> Forall (fun s => pairN lg s /\ nice s = false) L -> lsum (fun s => wts lg s) L <= loss * WT) ->
  forall skey, decode_skey lg skey (repeat 0%Z (2 ^ lg)) (repeat 0%Z (2 ^ lg)) (repeat 0%Z (2 ^ lg)) = Ok (true, (f, g, F_)) ->
  forall msg salt sig k m n (Ev : list Z -> bool), length salt = 40%nat -> (sig_bytes lg <= length sig)%nat -> (1 <= m)%nat -> (36 * k * 2 ^ lg * m <= n)%nat ->
  (forall v c e s, length v = (136 * k + n)%nat -> bytes v -> hash_to_point k (fun _ => stream (firstn (136 * k) v)) lg salt msg (repeat 0%Z (2 ^ lg)) = Ok c ->
    sign RF exact_table m k (fun _ => stream (firstn (136 * k) v)) lg skey msg sig (stream (salt ++ skipn (136 * k) v)) = Ok (true, e) ->
    signable lg c h s -> nice s = true -> body_bits lg e = wire lg s -> Ev v = true) ->
  1 - (981 / 1000) ^ (2 ^ lg) - unfit lg - loss - (INR (2 * 2 ^ lg) * (2 / 2 ^ 34 + (11 / 12) ^ k) + 16 ^ 2 ^ lg / 8 ^ (68 * k)) <= prob (136 * k + n) Ev.
Proof.
  intros HS Lh HK nice loss HL skey HD msg salt sig k m n Ev Lsa Ls Hm Hn HE. set (N := (2 ^ lg)%nat) in *.
  assert (K' := HS). destruct K' as (Lf & Lg & LF & LG & HN & HGS & Hsm & BF & BG & Sf & Sg & HI). fold N in Lf, Lg, LF, LG, HN. assert (H1 : (1 <= lg <= 10)%nat) by (destruct Hlg as [->| ->]; lia).
  assert (Hn1 : (36 * k * N <= n)%nat) by (clear - Hm Hn; nia).
  set (T0 := fresh RF (N * (lg + 1))). assert (LT : ((lg + 1) * N <= length T0)%nat). { unfold T0. change (fresh RF (N * (lg + 1))) with (repeat (c0 RF) (N * (lg + 1))). rewrite repeat_length. lia. }
  destruct (P_gs.tree_ok lg f g F_ G_ T0 H1 Lf Lg LF LG HN LT) as [T [HT _]].
  assert (HB := P_treex.matrix_B_ok lg (proj2 H1) f g F_ G_ Lf Lg LF LG). set (B := P_treex.Bex lg f g F_ G_) in *.
  destruct (simulation lg Hlg f g F_ G_ h0 h B T0 T HS Lh HK LT HB HT) as (WT & WT0 & TWT & SIM).
  destruct (good_list lg) as (LS & NS & DS). set (LN := filter nice LS). assert (NN : NoDup LN) by (apply NoDup_filter; exact NS).
  assert (DN : forall s, In s LN <-> In s LS /\ nice s = true) by (intros s; apply filter_In).
  set (hev := fun v => hash_to_point k (fun _ => stream (firstn (136 * k) v)) lg salt msg (repeat 0%Z N)).
  apply Rle_trans with (lsum (fun c => prob (136 * k + n) (fun v => hashes_to (hev v) c && Ev v)) (polys N)); [|exact (prob_disjoint (list_eq_dec Z.eq_dec) (136 * k + n) Ev hev (polys N) (polys_nodup N))].
  set (P := fun p : list Z * (list Z * list Z) => prob (136 * k + n) (fun v => hashes_to (hev v) (fst p) && pass_draws lg B T k (fst p) (skipn (136 * k) v) (snd p))).
  apply Rle_trans with (lsum (fun s => P (hkey lg h s, s)) LN).
  - apply (lsum_ge (fun s => P (hkey lg h s, s)) (fun s => wts lg s) WT); [exact WT0| |exact (good_mass lg Hlg f g F_ G_ h0 h HS Lh HK WT TWT LS NS DS nice loss (HL WT TWT))].
    set (L := map (fun s => (hkey lg h s, s)) LN).
    assert (NL : NoDup L) by (apply FinFun.Injective_map_NoDup; [intros a b E; congruence|exact NN]).
    assert (DL : Forall (fun p => length (fst p) = N /\ Forall canon (fst p) /\ coset lg (fst p) h (snd p)) L).
    { apply Forall_forall. intros p Hp. apply in_map_iff in Hp. destruct Hp as (s & <- & Hs). apply DN in Hs. destruct Hs as [Hs _]. cbn [fst snd]. assert (Hk := hkey_in lg h s). apply polys_in in Hk. destruct Hk as [A1 A2]. split; [exact A1|]. split; [exact A2|]. apply coset_key; [exact A1|exact A2|]. split; [apply DS, Hs|reflexivity]. }
    assert (S1 := SIM salt msg (repeat 0%Z N) k k n L (repeat_length _ _) Hn1 NL DL). unfold L in S1. rewrite lsum_map in S1. exact S1.
  - rewrite (lsum_keys (list_eq_dec Z.eq_dec) (hkey lg h) _ (polys N) LN (polys_nodup _)) by (intros; apply hkey_in). apply lsum_le. intros c Hc. apply polys_in in Hc. destruct Hc as [Lc Cc].
    set (LA := at_key (list_eq_dec Z.eq_dec) (hkey lg h) c LS).
    assert (Ht := P_sign.target_ok lg (proj2 H1) f g F_ G_ c Lc). fold B in Ht.
    destruct (sign_target RF exact_table lg B c) as [[t0 t1]| |] eqn:Et; [clear Ht|discriminate|discriminate].
    assert (NA : NoDup LA) by (apply NoDup_filter; exact NS).
    assert (DA : forall s, In s LA <-> signable lg c h s).
    { intros s. unfold signable. rewrite (coset_key lg c h s Lc Cc). split.
      - intros Hs. apply in_at_key in Hs. destruct Hs as [Hs E]. apply DS in Hs. destruct Hs as (Pn & Sh & Ft). unfold shortb in Sh. unfold fitb in Ft. apply Z.leb_le in Sh. apply Z.ltb_lt in Ft. tauto.
      - intros ((Pn & E) & Sh & Ft). unfold LA, at_key. apply filter_In. split; [|destruct (list_eq_dec Z.eq_dec (hkey lg h s) c); [reflexivity|contradiction]]. apply DS. split; [exact Pn|]. split; [apply Z.leb_le; exact Sh|apply Z.ltb_lt; exact Ft]. }
    set (t := fun b : list bool => existsb (fun s => nice s && (if list_eq_dec Bool.bool_dec b (wire lg s) then true else false)) LA).
    assert (LP := loop_test lg Hlg f g F_ G_ Lf Lg LF LG HN HGS Hsm BF BG Sf Sg HI h0 h Lh HK B T0 T LT HB HT c t0 t1 Lc Cc Et LA t NA DA k m n sig Ls Hm Hn).
    set (pe := prob (136 * k) (fun w => hashes_to (hash_to_point k (fun _ => stream w) lg salt msg (repeat 0%Z N)) c)).
    assert (PE0 : 0 <= pe) by apply prob_range.
    set (D := fun s => prob n (fun w => draws lg B t0 t1 (ff_sampling RF exact_table k lg 0 t0 t1 T 0 (sigma_min RF lg) (stream w) 0) s)) in *.
    rewrite (lsum_ext _ (fun s => pe * D s)).
    2:{ intros s Hs. apply in_at_key in Hs. destruct Hs as [_ E]. unfold P. cbn [fst snd]. rewrite E. unfold hev.
        rewrite (prob_split (136 * k) n (fun w => hashes_to (hash_to_point k (fun _ => stream w) lg salt msg (repeat 0%Z N)) c) (fun w => pass_draws lg B T k c w s)). fold pe. unfold D. f_equal. apply prob_ext. intros w. unfold pass_draws. rewrite Et. reflexivity. }
    rewrite lsum_scal.
    assert (LQ : lsum D (at_key (list_eq_dec Z.eq_dec) (hkey lg h) c LN) <= lsum (fun s => P_prob.ind (t (wire lg s)) * D s) LA).
    { rewrite (lsum_ext D (fun s => P_prob.ind (t (wire lg s)) * D s)).
      - apply lsum_incl; [exact pair_dec|intros s; apply Rmult_le_pos; [destruct (t _); cbn; lra|apply prob_range]|apply NoDup_filter; exact NN|]. intros s Hs. left. apply in_at_key in Hs. destruct Hs as [Hs E]. apply DN in Hs. apply filter_In. split; [apply Hs|]. destruct (list_eq_dec Z.eq_dec (hkey lg h s) c); [reflexivity|contradiction].
      - intros s Hs. replace (t (wire lg s)) with true; [cbn [P_prob.ind]; ring|]. symmetry. apply existsb_exists. apply in_at_key in Hs. destruct Hs as [Hs E]. apply DN in Hs. destruct Hs as [Hs En]. exists s. split.
        + apply filter_In. split; [exact Hs|]. destruct (list_eq_dec Z.eq_dec (hkey lg h s) c); [reflexivity|contradiction].
        + rewrite En. destruct (list_eq_dec Bool.bool_dec _ _); [reflexivity|contradiction]. }
    eapply Rle_trans; [apply Rmult_le_compat_l; [exact PE0|]; eapply Rle_trans; [exact LQ|exact LP]|]. unfold pe.
    rewrite <- (prob_split (136 * k) n (fun w => hashes_to (hash_to_point k (fun _ => stream w) lg salt msg (repeat 0%Z N)) c) (fun w => ends_with (fun e => t (body_bits lg e)) (sign_loop RF exact_table m k lg B T t0 t1 (sigma_min RF lg) (beta2 lg) (stream w) 0 sig))).
    rewrite !prob_avg. apply avg_mono. intros v Lv Bv. fold (hev v). assert (I0 : forall b, 0 <= P_prob.ind b) by (intros []; cbn; lra). unfold hashes_to. destruct (hev v) as [c'| |] eqn:Eh; [|apply I0|apply I0]. destruct (list_eq_dec Z.eq_dec c' c) as [->|]; [|apply I0]. cbn [andb].
    rewrite <- (sign_bits lg Hlg f g F_ G_ HS h0 h Lh HK t B T (fun _ => stream (firstn (136 * k) v)) c t0 t1 msg salt skey sig (skipn (136 * k) v) m k Ls Lsa Eh HD HB HT Et).
    destruct (sign RF exact_table m k (fun _ => stream (firstn (136 * k) v)) lg skey msg sig (stream (salt ++ skipn (136 * k) v))) as [[[|] e]| |] eqn:Es; [|apply I0|apply I0|apply I0].
    destruct (t (body_bits lg e)) eqn:Eb; [|apply I0]. apply existsb_exists in Eb. destruct Eb as (s & Hs & Eb). apply Bool.andb_true_iff in Eb. destruct Eb as [En Eb]. destruct (list_eq_dec Bool.bool_dec _ _) as [Eb'|]; [|discriminate].
    rewrite (HE v c e s Lv Bv Eh Es (proj1 (DA s) Hs) En Eb'). apply Rle_refl.
Qed.
Theorem sign_fast lg (Hlg : falcon_lg lg) f g F_ G_ h0 h : sound_key lg f g F_ G_ -> length h0 = (2 ^ lg)%nat -> compute_public_key lg f g h0 = Ok h ->
  forall skey, decode_skey lg skey (repeat 0%Z (2 ^ lg)) (repeat 0%Z (2 ^ lg)) (repeat 0%Z (2 ^ lg)) = Ok (true, (f, g, F_)) ->
  forall msg salt sig k m n, length salt = 40%nat -> (sig_bytes lg <= length sig)%nat -> (1 <= m)%nat -> (36 * k * 2 ^ lg * m <= n)%nat ->
  1 - (981 / 1000) ^ (2 ^ lg) - unfit lg - (INR (2 * 2 ^ lg) * (2 / 2 ^ 34 + (11 / 12) ^ k) + 16 ^ 2 ^ lg / 8 ^ (68 * k)) <=
  prob (136 * k + n) (fun v => signed (sign RF exact_table m k (fun _ => stream (firstn (136 * k) v)) lg skey msg sig (stream (salt ++ skipn (136 * k) v)))).
Proof.
  intros HS Lh HK skey HD msg salt sig k m n Lsa Ls Hm Hn.
  assert (X := sign_test lg Hlg f g F_ G_ h0 h HS Lh HK (fun _ => true) 0). 
  eapply Rle_trans; [|apply (X (fun WT _ L _ DL => ltac:(destruct L as [|s L]; [unfold lsum; cbn [fold_right]; lra|inversion DL as [|? ? [_ D] _]; discriminate])) skey HD msg salt sig k m n _ Lsa Ls Hm Hn)].
  - lra.
  - intros v c e s _ _ _ Es _ _ _. cbv beta. rewrite Es. reflexivity.
Qed.

(** ** in numbers *)
Lemma hash_err lg k : falcon_lg lg -> (512 <= k)%nat -> 16 ^ 2 ^ lg / 8 ^ (68 * k) <= 1 / 1000000.
Proof.
  intros Hlg Hk. assert (HN : (2 ^ lg <= 1024)%nat) by (destruct Hlg as [-> | ->]; apply Nat.leb_le; reflexivity). set (N := (2 ^ lg)%nat) in *. clearbody N.
  assert (A : 16 ^ N <= 8 ^ (2 * N)) by (rewrite pow_mult; apply pow_incr; lra). replace (68 * k)%nat with (2 * N + (68 * k - 2 * N - 7) + 7)%nat by lia. rewrite !pow_add.
  assert (P1 : 0 < 8 ^ (2 * N)) by (apply pow_lt; lra). assert (P2 : 1 <= 8 ^ (68 * k - 2 * N - 7)) by (apply pow_R1_Rle; lra). set (a := 8 ^ (2 * N)) in *. set (b := 8 ^ (68 * k - 2 * N - 7)) in *. replace (8 ^ 7) with 2097152 by (cbn; lra).
  apply (Rmult_le_reg_r (a * b * 2097152)); [apply Rmult_lt_0_compat; [apply Rmult_lt_0_compat; lra|lra]|]. unfold Rdiv at 1. rewrite Rmult_assoc, Rinv_l, Rmult_1_r by (apply Rgt_not_eq, Rmult_lt_0_compat; [apply Rmult_lt_0_compat; lra|lra]).
  assert (a * 1 <= a * b) by (apply Rmult_le_compat_l; lra). lra.
Qed.
Lemma sign_rare lg (Hlg : falcon_lg lg) f g F_ G_ h0 h : sound_key lg f g F_ G_ -> length h0 = (2 ^ lg)%nat -> compute_public_key lg f g h0 = Ok h ->
  forall skey, decode_skey lg skey (repeat 0%Z (2 ^ lg)) (repeat 0%Z (2 ^ lg)) (repeat 0%Z (2 ^ lg)) = Ok (true, (f, g, F_)) ->
  forall msg salt sig k m n, length salt = 40%nat -> (sig_bytes lg <= length sig)%nat -> (512 <= k)%nat -> (1 <= m)%nat -> (36 * k * 2 ^ lg * m <= n)%nat ->
  (if Nat.eqb lg 9 then 9999 / 10000 else 987 / 1000) <=
  prob (136 * k + n) (fun v => signed (sign RF exact_table m k (fun _ => stream (firstn (136 * k) v)) lg skey msg sig (stream (salt ++ skipn (136 * k) v)))).
Proof.
  intros HS Lh HK skey HD msg salt sig k m n Lsa Ls Hk Hm Hn. eapply Rle_trans; [|exact (sign_fast lg Hlg f g F_ G_ h0 h HS Lh HK skey HD msg salt sig k m n Lsa Ls Hm Hn)].
  assert (A := tmass_small lg Hlg). assert (B := err_small lg k Hlg Hk). assert (C := hash_err lg k Hlg Hk).
  assert (D : INR (2 * 2 ^ lg) * (2 / 2 ^ 34 + (11 / 12) ^ k) <= 2 * (INR (2 * 2 ^ lg) * (/ 2 ^ 34 + (11 / 12) ^ k))).
  { assert (0 <= INR (2 * 2 ^ lg)) by apply pos_INR. assert (0 <= (11 / 12) ^ k) by (apply pow_le; lra). assert (0 <= INR (2 * 2 ^ lg) * (11 / 12) ^ k) by (apply Rmult_le_pos; assumption).
    replace (2 * (INR (2 * 2 ^ lg) * (/ 2 ^ 34 + (11 / 12) ^ k))) with (INR (2 * 2 ^ lg) * (2 / 2 ^ 34 + (11 / 12) ^ k) + INR (2 * 2 ^ lg) * (11 / 12) ^ k) by (unfold Rdiv; ring). lra. }
  set (a := (981 / 1000) ^ (2 ^ lg)) in *. set (b := INR (2 * 2 ^ lg) * (2 / 2 ^ 34 + (11 / 12) ^ k)) in *. set (b' := INR (2 * 2 ^ lg) * (/ 2 ^ 34 + (11 / 12) ^ k)) in *. set (c := 16 ^ 2 ^ lg / 8 ^ (68 * k)) in *. clearbody a b b' c.
  destruct Hlg as [-> | ->]; unfold unfit; cbn [Nat.eqb]; lra.
Qed.
