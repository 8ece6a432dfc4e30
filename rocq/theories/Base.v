(** Base.v -- outcome monad, checked memory, counted loops, C++ integer widths.

    Common vocabulary of all models.  Nothing here is specific to Falcon. *)
From Coq Require Export List ZArith Lia Bool Arith.
From Coq Require Import ZifyBool ZifyNat ZifyN.
Export ListNotations.
Open Scope Z_scope.

(** ** Outcomes
    [UB]: the C++ program has undefined behaviour (out-of-bounds access, signed overflow ...).
    [Fuel]: the loop bound given to the model was exhausted (the C++ loop is still running). *)
Inductive res (A : Type) : Type :=
| Ok (a : A)
| UB
| Fuel.
Arguments Ok {A} a.
Arguments UB {A}.
Arguments Fuel {A}.

Definition bind {A B} (x : res A) (f : A -> res B) : res B :=
  match x with Ok a => f a | UB => UB | Fuel => Fuel end.
Notation "x <- e ;; k" := (bind e (fun x => k)) (at level 61, e at next level, right associativity).
Notation "' p <- e ;; k" := (bind e (fun p => k)) (at level 61, p pattern, e at next level, right associativity).

Lemma bind_Ok {A B} (x : res A) (f : A -> res B) b :
  bind x f = Ok b <-> exists a, x = Ok a /\ f a = Ok b.
Proof.
  destruct x as [a| |]; simpl; split; intros H; try discriminate.
  - exists a; auto.
  - destruct H as [a' [H1 H2]]; injection H1 as ->; exact H2.
  - destruct H as [a' [H1 _]]; discriminate.
  - destruct H as [a' [H1 _]]; discriminate.
Qed.

(** ** Memory: an array is a list; reads and writes are bounds-checked. *)
Definition rd {A} (l : list A) (i : nat) : res A :=
  match nth_error l i with Some a => Ok a | None => UB end.

Fixpoint upd {A} (l : list A) (i : nat) (v : A) : list A :=
  match l, i with
  | [], _ => []
  | _ :: l', O => v :: l'
  | a :: l', S i' => a :: upd l' i' v
  end.

Definition wr {A} (l : list A) (i : nat) (v : A) : res (list A) :=
  if Nat.ltb i (length l) then Ok (upd l i v) else UB.

Lemma upd_length {A} (l : list A) i v : length (upd l i v) = length l.
Proof. revert i; induction l as [|a l IH]; intros [|i]; simpl; auto. Qed.

Lemma nth_upd {A} (l : list A) i v j d :
  (i < length l)%nat ->
  nth j (upd l i v) d = if Nat.eqb j i then v else nth j l d.
Proof.
  revert i j; induction l as [|a l IH]; intros [|i] [|j]; simpl; intros H; try lia; auto.
  apply IH; lia.
Qed.

Lemma rd_Ok {A} (l : list A) i d : (i < length l)%nat -> rd l i = Ok (nth i l d).
Proof.
  intros H; unfold rd. rewrite (nth_error_nth' l d H). reflexivity.
Qed.

Lemma rd_inv {A} (l : list A) i a : rd l i = Ok a -> (i < length l)%nat /\ forall d, nth i l d = a.
Proof.
  unfold rd; destruct (nth_error l i) eqn:E; intros H; inversion H; subst.
  split. apply nth_error_Some; congruence. intros d; apply nth_error_nth; exact E.
Qed.

Lemma wr_Ok {A} (l : list A) i v : (i < length l)%nat -> wr l i v = Ok (upd l i v).
Proof. intros H; unfold wr. apply Nat.ltb_lt in H; rewrite H; reflexivity. Qed.

Lemma list_ext {A} (d : A) (l l' : list A) :
  length l = length l' -> (forall i, (i < length l)%nat -> nth i l d = nth i l' d) -> l = l'.
Proof. intros H1 H2; eapply nth_ext; [exact H1|intros n Hn; apply H2; exact Hn]. Qed.

(** ** Counted loop: [forn n i body s] runs [body i; body (i+1); ...] n times. *)
Fixpoint forn {S : Type} (n i : nat) (body : nat -> S -> res S) (s : S) : res S :=
  match n with
  | O => Ok s
  | Datatypes.S n' => s' <- body i s ;; forn n' (Datatypes.S i) body s'
  end.

Lemma forn_inv {S} (P : nat -> S -> Prop) n i body (s : S) :
  P i s ->
  (forall j t, (i <= j < i + n)%nat -> P j t -> exists t', body j t = Ok t' /\ P (Datatypes.S j) t') ->
  exists t, forn n i body s = Ok t /\ P (i + n)%nat t.
Proof.
  revert i s; induction n as [|n IH]; intros i s H0 Hstep; simpl.
  - exists s; split; auto. replace (i + 0)%nat with i by lia; exact H0.
  - destruct (Hstep i s) as [s' [E HP]]; [lia|exact H0|].
    rewrite E; simpl.
    destruct (IH (Datatypes.S i) s' HP) as [t [E' HP']].
    + intros j t Hj Ht; apply Hstep; [lia|exact Ht].
    + exists t; split; [exact E'|]. replace (i + Datatypes.S n)%nat with (Datatypes.S i + n)%nat by lia. exact HP'.
Qed.

(** Inversion form: a loop that finished went through states satisfying the invariant. *)
Lemma forn_inv_ok {S} (P : nat -> S -> Prop) n i body (s r : S) :
  P i s ->
  (forall j t t', (i <= j < i + n)%nat -> P j t -> body j t = Ok t' -> P (Datatypes.S j) t') ->
  forn n i body s = Ok r -> P (i + n)%nat r.
Proof.
  revert i s; induction n as [|n IH]; intros i s H0 Hstep H; simpl in H.
  - injection H as <-. replace (i + 0)%nat with i by lia; exact H0.
  - apply bind_Ok in H; destruct H as [s' [E H]].
    replace (i + Datatypes.S n)%nat with (Datatypes.S i + n)%nat by lia.
    apply (IH (Datatypes.S i) s'); auto.
    + apply (Hstep i s); auto; lia.
    + intros j t t' Hj; apply Hstep; lia.
Qed.

(** ** C++ integer widths (C++20: conversions are modular). *)
Definition u8  (x : Z) : Z := x mod 256.
Definition u16 (x : Z) : Z := x mod 65536.
Definition u32 (x : Z) : Z := x mod 4294967296.
Definition u64 (x : Z) : Z := x mod 18446744073709551616.
Definition i16 (x : Z) : Z := (x + 32768) mod 65536 - 32768.
Definition i32 (x : Z) : Z := (x + 2147483648) mod 4294967296 - 2147483648.
Definition b2z (b : bool) : Z := if b then 1 else 0.

(** Signed 32-bit arithmetic: the standard makes overflow undefined; [Wrap] is the behaviour of
    compilers with -fwrapv (and the usual machine code). *)
Inductive ovf := Strict | Wrap.
Definition s32 (m : ovf) (x : Z) : res Z :=
  if ((- 2147483648 <=? x) && (x <? 2147483648))%bool then Ok x
  else match m with Strict => UB | Wrap => Ok (i32 x) end.

Lemma i32_id x : - 2147483648 <= x < 2147483648 -> i32 x = x.
Proof. unfold i32; intros H. rewrite Z.mod_small; lia. Qed.
Lemma i16_id x : - 32768 <= x < 32768 -> i16 x = x.
Proof. unfold i16; intros H. rewrite Z.mod_small; lia. Qed.

(** A byte and a byte string. *)
Definition byte (b : Z) : Prop := 0 <= b < 256.
Definition bytes (l : list Z) : Prop := Forall byte l.

Lemma Forall_nth_lt {A} (P : A -> Prop) l d i : Forall P l -> (i < length l)%nat -> P (nth i l d).
Proof. intros H Hi. rewrite Forall_forall in H. apply H, nth_In, Hi. Qed.

Lemma Forall_nth_intro {A} (P : A -> Prop) l d :
  (forall i, (i < length l)%nat -> P (nth i l d)) -> Forall P l.
Proof.
  intros H. apply Forall_forall. intros x Hx.
  apply (In_nth l x d) in Hx; destruct Hx as [n [Hn <-]]; apply H, Hn.
Qed.

Lemma Forall_upd {A} (P : A -> Prop) l i v : Forall P l -> P v -> Forall P (upd l i v).
Proof.
  intros H Hv; revert i; induction H as [|a l Ha Hl IH]; intros [|i]; simpl; constructor; auto.
Qed.

(** Generating a list from an index function. *)
Definition tab {A} (n : nat) (f : nat -> A) : list A := map f (seq 0 n).

Lemma tab_length {A} n (f : nat -> A) : length (tab n f) = n.
Proof. unfold tab; rewrite map_length, seq_length; reflexivity. Qed.

Lemma nth_tab {A} n (f : nat -> A) i d : (i < n)%nat -> nth i (tab n f) d = f i.
Proof.
  intros H; unfold tab. rewrite (nth_indep _ d (f 0%nat)) by (rewrite map_length, seq_length; exact H).
  rewrite map_nth, seq_nth by exact H. reflexivity.
Qed.

Lemma tab_ext {A} n (f g : nat -> A) : (forall i, (i < n)%nat -> f i = g i) -> tab n f = tab n g.
Proof. intros H; unfold tab; apply map_ext_in; intros a Ha; apply in_seq in Ha; apply H; lia. Qed.

Lemma tab_nth {A} (l : list A) d : tab (length l) (fun i => nth i l d) = l.
Proof.
  apply (list_ext d); rewrite tab_length; auto.
  intros i Hi; rewrite nth_tab by exact Hi; reflexivity.
Qed.

(** Bounded boolean quantification used for finite tables. *)
Fixpoint alln (n : nat) (p : nat -> bool) : bool :=
  match n with O => true | S n' => p n' && alln n' p end.

Lemma alln_spec n p : alln n p = true -> forall i, (i < n)%nat -> p i = true.
Proof.
  induction n as [|n IH]; simpl; intros H i Hi; [lia|].
  apply andb_prop in H; destruct H as [H1 H2].
  destruct (Nat.eq_dec i n) as [->|Hn]; [exact H1|apply IH; [exact H2|lia]].
Qed.
