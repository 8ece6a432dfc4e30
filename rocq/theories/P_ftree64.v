(** P_ftree64.v -- the tree of a key in IEEE 754 binary64. *)
From Coq Require Import SpecFloat.
From Flocq Require Import Core.
From Verif Require Import Base Ring Poly Spec SpecR SpecF M_float M_exact P_exact M_ieee M_table M_samp M_fft M_ntru M_tree P_cplx P_fft P_tree P_treex P_gs P_l2 P_err P_near P_ieee P_fsamp P_fsign P_ftree P_ftreex P_ftreek.
From Verif Require P_fsv P_key.
From Coq Require Import Lra Psatz.
Open Scope R_scope.

Lemma realness_exact : realness RF (fun _ => True) (fun x => x).
Proof. constructor; cbn; intros. - rewrite H1. change (D RF) with R in *. ring. - change (D RF) with R in *. ring. - rewrite H5, H6. change (D RF) with R in *. ring. Qed.

Lemma big2 a b : Rabs a <= 10 ^ 40 -> Rabs b <= 10 ^ 40 -> Rabs (a * b) <= 10 ^ 80.
Proof. intros H1 H2. rewrite Rabs_mult. replace (10 ^ 80) with (10 ^ 40 * 10 ^ 40) by (rewrite <- pow_add; reflexivity). apply Rmult_le_compat; try apply Rabs_pos; assumption. Qed.
Lemma le_80 x : x <= 10 ^ 80 -> x <= 10 ^ 250.
Proof. intros H. eapply Rle_trans; [exact H|]. apply Rle_pow; [lra|lia]. Qed.
Lemma rnd_0 : rnd 0 = 0. Proof. apply (rnd_int 0). cbv. discriminate. Qed.
Lemma rnd_opp a : rnd (- a) = - rnd a. Proof. apply round_NE_opp. Qed.
Lemma zero_mul x y : fin64 x -> fin64 y -> val64 x * val64 y = 0 -> fin64 (sf_mul x y) /\ val64 (sf_mul x y) = 0.
Proof. intros Hx Hy E. destruct (mul64r x y Hx Hy) as [F1 V1]; [rewrite E, Rabs_R0; apply pow_le; lra|]. split; [exact F1|]. rewrite V1, E. apply rnd_0. Qed.
Lemma zero_add x y : fin64 x -> fin64 y -> val64 x + val64 y = 0 -> val64 (sf_add x y) = 0.
Proof. intros Hx Hy E. destruct (add64r x y Hx Hy) as [F1 V1]; [rewrite E, Rabs_R0; apply pow_le; lra|]. rewrite V1, E. apply rnd_0. Qed.
Lemma realness64 : realness F64 fin64 val64.
Proof.
  constructor.
  - intros x y Hx Hy E _. apply zero_mul; [exact Hx|exact Hy|]. rewrite E. ring.
  - intros [a b] Ha Hb Ba Bb. cbn [fst snd] in *. unfold cconj. cbn [fst snd fcmul F64 fneg].
    destruct (neg64 b Hb) as [Fn Vn]. destruct (mul64r a (SFopp b) Ha Fn) as [F1 V1]; [rewrite Vn; apply le_80, big2; [exact Ba|rewrite Rabs_Ropp; exact Bb]|].
    destruct (mul64r b a Hb Ha) as [F2 V2]; [apply le_80, big2; assumption|].
    apply zero_add; [exact F1|exact F2|]. rewrite V1, V2, Vn. replace (val64 a * - val64 b) with (- (val64 b * val64 a)) by ring. rewrite rnd_opp. ring.
  - intros [a b] [c e] Ha Hb Hc He _ _ Zb Ze. cbn [fst snd fcmul F64] in *.
    destruct (zero_mul a e Ha He) as [F1 V1]; [rewrite Ze; ring|]. destruct (zero_mul b c Hb Hc) as [F2 V2]; [rewrite Zb; ring|]. apply zero_add; [exact F1|exact F2|]. lra.
Qed.

Section Gen.
Variable F : fops.
Variable fin : D F -> Prop.
Variable val : D F -> R.
Hypothesis A : accurate F fin val.
Hypothesis RE : realness F fin val.
Variable ztab : list (D F * D F).
Hypothesis HZ : table_near F fin val ztab.
(** the matrix and the tree of a key, computed *)
Lemma key_tree h f g F_ G_ (T : list (D F * D F)) : let lg := S h in let N := (2 ^ lg)%nat in falcon_lg lg ->
  length f = N -> length g = N -> length F_ = N -> length G_ = N -> ntru N f g F_ G_ -> gs_norm lg f g <= 168224122 / 10000 ->
  (sqnorm F_ <= 16777216)%Z -> (sqnorm G_ <= 16777216)%Z -> ((lg + 1) * N <= length T)%nat ->
  exists B T' l a b, compute_matrix_B F ztab lg f g F_ G_ = Ok B /\ blocks F fin val lg f g F_ G_ 131 4096 B /\ compute_falcon_tree F ztab lg B T = Ok T' /\ length T' = length T /\
    stored F N lg T' 0 (ntree F (sigma_value F lg) (Node F l a b)) /\ vfin F fin N l /\
    (forall i, (i < N)%nat -> Cm (Csub (Cmul (X F val l i) (Cof (dd lg f g i))) (P_norm.wv h f g F_ G_ i)) <= 1 / 10000) /\ near F fin val PP h (dd lg f g) a /\ near F fin val PP h (ddo lg f g) b.
Proof.
  intros lg N Hlg Lf Lg LF LG HN HGS SF SG LT. assert (H10 : (lg <= 10)%nat) by (destruct Hlg as [Q|Q]; rewrite Q; lia). destruct (kf_sq h f g F_ G_) as [Sf Sg]; try assumption.
  destruct (matrix_B_apx F fin val A ztab HZ lg H10 f g F_ G_ Lf Lg LF LG 131 4096 ltac:(lra) ltac:(lra)
    (P_fsv.nrm_list lg f 131 Lf ltac:(discriminate) Sf) (P_fsv.nrm_list lg g 131 Lg ltac:(discriminate) Sg) (P_fsv.nrm_list lg F_ 4096 LF ltac:(discriminate) SF) (P_fsv.nrm_list lg G_ 4096 LG ltac:(discriminate) SG)) as (B & E & Bl).
  assert (Bl' := Bl). destruct Bl' as (w0 & w1 & w2 & w3 & -> & A0 & A1 & A2 & A3). unfold e1, e2 in *.
  destruct (tree_float F fin val A RE ztab HZ h Hlg f g F_ G_ Lf Lg LF LG HN HGS SF SG w0 w1 w2 w3 T) as (T' & l & a & b & H1 & H2 & H3 & H4 & H5 & H6 & H7); try (eapply apx_weak; [eassumption|]; simpl; lra); [exact LT|].
  exists (w0 ++ w1 ++ w2 ++ w3), T', l, a, b. repeat (split; [assumption|]). assumption.
Qed.
Lemma key_cells h f g F_ G_ (T : list (D F * D F)) (TX : list Cx) : let lg := S h in let N := (2 ^ lg)%nat in falcon_lg lg ->
  length f = N -> length g = N -> length F_ = N -> length G_ = N -> ntru N f g F_ G_ -> gs_norm lg f g <= 168224122 / 10000 ->
  (sqnorm F_ <= 16777216)%Z -> (sqnorm G_ <= 16777216)%Z -> ((lg + 1) * N <= length T)%nat -> ((lg + 1) * N <= length TX)%nat ->
  exists B T' BX TX', compute_matrix_B F ztab lg f g F_ G_ = Ok B /\ compute_falcon_tree F ztab lg B T = Ok T' /\ length T' = length T /\
    compute_matrix_B RF exact_table lg f g F_ G_ = Ok BX /\ compute_falcon_tree RF exact_table lg BX TX = Ok TX' /\ length TX' = length TX /\
    forall k, (k < (lg + 1) * N)%nat -> let x := nth k T' (c0 F) in
      fin (fst x) /\ fin (snd x) /\ Cmod (Csub (val (fst x), val (snd x)) (nth k TX' Czero)) <= 1 / 400 /\
      ((lg * N <= k)%nat -> val (snd x) = 0 /\ 127 / 100 <= val (fst x) <= 179 / 100).
Proof.
  intros lg N Hlg Lf Lg LF LG HN HGS SF SG LT LX. assert (H10 : (lg <= 10)%nat) by (destruct Hlg as [Q|Q]; rewrite Q; lia).
  destruct (key_tree h f g F_ G_ T Hlg Lf Lg LF LG HN HGS SF SG LT) as (B & T' & l & a & b & E1 & _ & E2 & L2 & St & Fl & El & Na & Nb).
  destruct (tree_ok lg f g F_ G_ TX ltac:(lia) Lf Lg LF LG HN LX) as (TX' & E3 & L3 & SX).
  exists B, T', (Bex lg f g F_ G_), TX'. split; [exact E1|]. split; [exact E2|]. split; [exact L2|]. split; [apply matrix_B_ok; (assumption || lia)|]. split; [exact E3|]. split; [exact L3|].
  intros k Hk x. destruct (tree_cells F fin val A h Hlg f g F_ G_ Lf Lg LF LG HN HGS SF SG T' TX' l a b St Fl El Na Nb SX k Hk) as ([C1 C1'] & C2 & C3).
  split; [exact C1|]. split; [exact C1'|]. split; [eapply Rle_trans; [exact C2|]; lra|exact C3].
Qed.
End Gen.
Lemma key_cells64 lg f g F_ G_ T TX : falcon_lg lg ->
  length f = (2 ^ lg)%nat -> length g = (2 ^ lg)%nat -> length F_ = (2 ^ lg)%nat -> length G_ = (2 ^ lg)%nat -> ntru (2 ^ lg) f g F_ G_ -> gs_norm lg f g <= 168224122 / 10000 ->
  (sqnorm F_ <= 16777216)%Z -> (sqnorm G_ <= 16777216)%Z -> ((lg + 1) * 2 ^ lg <= length T)%nat -> ((lg + 1) * 2 ^ lg <= length TX)%nat ->
  exists B T' BX TX', compute_matrix_B F64 (source_table F64) lg f g F_ G_ = Ok B /\ compute_falcon_tree F64 (source_table F64) lg B T = Ok T' /\ length T' = length T /\
    compute_matrix_B RF exact_table lg f g F_ G_ = Ok BX /\ compute_falcon_tree RF exact_table lg BX TX = Ok TX' /\ length TX' = length TX /\
    forall k, (k < (lg + 1) * 2 ^ lg)%nat -> let x := nth k T' (c0 F64) in
      fin64 (fst x) /\ fin64 (snd x) /\ Cmod (Csub (val64 (fst x), val64 (snd x)) (nth k TX' Czero)) <= 1 / 400 /\
      ((lg * 2 ^ lg <= k)%nat -> val64 (snd x) = 0 /\ 127 / 100 <= val64 (fst x) <= 179 / 100).
Proof. destruct lg as [|h]; [intros [E|E]; discriminate|]. apply (key_cells F64 fin64 val64 accurate64 realness64 _ (source_near _ _ _ accurate64)). Qed.
