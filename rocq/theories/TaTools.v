(** * TaTools: reasoning rules shared by the proofs about vector functions. *)
From Verif Require Import Base Num.
Set Implicit Arguments.

(** [r] has [n] entries and entry [i] is [f i]. *)
Definition table {A} (r : list A) (n : nat) (f : nat -> A) : Prop :=
  length r = n /\ forall i, (i < n)%nat -> nth_error r i = Some (f i).

Lemma table_tab A n (f : nat -> A) : table (tab n f) n f.
Proof. split; [apply tab_length|]. intros i Hi. now apply tab_nth_error. Qed.

Lemma table_eq A r n (f : nat -> A) : table r n f -> r = tab n f.
Proof.
  intros [Hl H]. destruct n as [|n].
  - destruct r; [reflexivity|discriminate].
  - apply list_eq_nth with (d := f 0%nat).
    + now rewrite tab_length.
    + intros k Hk. rewrite tab_nth by lia. apply nth_error_nth, H; lia.
Qed.

Lemma nth_error_lt A (l : list A) k d : (k < length l)%nat -> nth_error l k = Some (nth k l d).
Proof. intros H; now apply nth_error_nth'. Qed.

(** Loops over natural-number indices whose state at each step is known. *)
Lemma for_nat S (st : nat -> S) lo hi (body : Z -> S -> res S) s0 :
  (lo <= hi)%nat -> s0 = st lo ->
  (forall i, (lo <= i < hi)%nat -> body (Z.of_nat i) (st i) = Ok (st (Datatypes.S i))) ->
  for_ (Z.of_nat lo) (Z.of_nat hi) body s0 = Ok (st hi).
Proof.
  intros Hle -> H.
  pose proof (@for_det S (fun z => st (Z.to_nat z)) (Z.of_nat lo) (Z.of_nat hi) body) as P.
  cbn beta in P. rewrite !Nat2Z.id in P. apply P; [lia|].
  intros i Hi. replace i with (Z.of_nat (Z.to_nat i)) at 1 by lia. rewrite H by lia.
  f_equal. f_equal. lia.
Qed.

Lemma for_nat0 S (st : nat -> S) (A : Type) (l : list A) (body : Z -> S -> res S) s0 :
  s0 = st 0%nat ->
  (forall i, (i < length l)%nat -> body (Z.of_nat i) (st i) = Ok (st (Datatypes.S i))) ->
  for_ 0 (len l) body s0 = Ok (st (length l)).
Proof.
  intros H0 H. change 0 with (Z.of_nat 0). unfold len.
  apply for_nat; [lia|exact H0|]. intros i Hi; apply H; lia.
Qed.

(** Loop invariants over natural indices, total correctness. *)
Lemma for_inv_nat S (I : nat -> S -> Prop) lo hi (body : Z -> S -> res S) s0 :
  (lo <= hi)%nat -> I lo s0 ->
  (forall i s, (lo <= i < hi)%nat -> I i s -> exists s', body (Z.of_nat i) s = Ok s' /\ I (Datatypes.S i) s') ->
  exists s', for_ (Z.of_nat lo) (Z.of_nat hi) body s0 = Ok s' /\ I hi s'.
Proof.
  intros Hle H0 H.
  destruct (@for_inv S (fun z => I (Z.to_nat z)) (Z.of_nat lo) (Z.of_nat hi) body s0) as (s' & E & HI).
  - lia.
  - now rewrite Nat2Z.id.
  - intros i s Hi HI. destruct (H (Z.to_nat i) s ltac:(lia) HI) as (s' & E & HI').
    rewrite Z2Nat.id in E by lia. exists s'; split; [exact E|].
    replace (Z.to_nat (i + 1)) with (Datatypes.S (Z.to_nat i)) by lia. exact HI'.
  - rewrite Nat2Z.id in HI. eauto.
Qed.

Lemma for_inv_nat0 S (I : nat -> S -> Prop) A (l : list A) (body : Z -> S -> res S) s0 :
  I 0%nat s0 ->
  (forall i s, (i < length l)%nat -> I i s -> exists s', body (Z.of_nat i) s = Ok s' /\ I (Datatypes.S i) s') ->
  exists s', for_ 0 (len l) body s0 = Ok s' /\ I (length l) s'.
Proof.
  intros H0 H. change 0 with (Z.of_nat 0). unfold len. apply for_inv_nat; [lia|exact H0|].
  intros i s Hi; apply H; lia.
Qed.

(** [result[i] = f i] for every [i] from [lo] on, zeros before. *)
Lemma fill_loop A (z : A) (f : nat -> A) n lo (body : Z -> list A -> res (list A)) :
  (lo <= n)%nat -> (forall k, (k < lo)%nat -> f k = z) ->
  (forall i, (lo <= i < n)%nat ->
     body (Z.of_nat i) (partial z f n i) = Ok (partial z f n (S i))) ->
  for_ (Z.of_nat lo) (Z.of_nat n) body (repeat z n) = Ok (tab n f).
Proof.
  intros Hle Hz H. rewrite <- (partial_full z f n).
  apply for_nat with (st := partial z f n); auto. now apply partial_skips.
Qed.

Lemma fill_loop0 A B (z : A) (f : nat -> A) (l : list B) (body : Z -> list A -> res (list A)) :
  (forall i, (i < length l)%nat ->
     body (Z.of_nat i) (partial z f (length l) i) = Ok (partial z f (length l) (S i))) ->
  for_ 0 (len l) body (repeat z (length l)) = Ok (tab (length l) f).
Proof.
  intros H. change 0 with (Z.of_nat 0). unfold len. apply fill_loop; try lia; auto. intros; apply H; lia.
Qed.

(** ** Prefix relations between two runs *)

(** Whenever both runs return, their results are related. *)
Definition resP {A B} (R : A -> B -> Prop) (m1 : res A) (m2 : res B) : Prop :=
  forall a b, m1 = Ok a -> m2 = Ok b -> R a b.

Lemma resP_ok A B (R : A -> B -> Prop) a b : R a b -> resP R (Ok a) (Ok b).
Proof. intros H x y E1 E2; injection E1 as <-; injection E2 as <-; exact H. Qed.
Lemma resP_panic_l A B (R : A -> B -> Prop) m : resP R Panic m.
Proof. intros x y E; discriminate. Qed.
Lemma resP_panic_r A B (R : A -> B -> Prop) m : resP R m Panic.
Proof. intros x y _ E; discriminate. Qed.

Lemma resP_bind A B A' B' (R : A -> B -> Prop) (Q : A' -> B' -> Prop) m1 m2 k1 k2 :
  resP R m1 m2 -> (forall a b, R a b -> resP Q (k1 a) (k2 b)) ->
  resP Q (bind m1 k1) (bind m2 k2).
Proof.
  intros H Hk x y E1 E2. apply bind_ok in E1 as (a & Ea & E1). apply bind_ok in E2 as (b & Eb & E2).
  eapply Hk; eauto.
Qed.

Lemma resP_refl A (m : res A) : resP eq m m.
Proof. intros a b E1 E2; congruence. Qed.

Lemma resP_mono A B (R Q : A -> B -> Prop) m1 m2 :
  (forall a b, R a b -> Q a b) -> resP R m1 m2 -> resP Q m1 m2.
Proof. intros H HR a b E1 E2; auto. Qed.

Lemma causal_iff A B (f : list A -> res (list B)) :
  causal f <-> forall xs xs', prefix xs xs' -> resP prefix (f xs) (f xs').
Proof.
  split.
  - intros H xs xs' [t ->] r r' E1 E2. eapply H; eauto.
  - intros H xs ys r r' E1 E2. eapply H; eauto. now exists ys.
Qed.

Lemma prefix_get A (xs xs' : list A) i : prefix xs xs' -> resP eq (get xs i) (get xs' i).
Proof. intros [t ->] a b E1 E2. apply get_app_l with (t := t) in E1. congruence. Qed.

Lemma prefix_len A (xs xs' : list A) : prefix xs xs' -> len xs <= len xs'.
Proof. intros H; apply prefix_length in H; unfold len; lia. Qed.

(** Two slices agree below index [i]. *)
Definition agree {A} (i : Z) (r r' : list A) : Prop :=
  forall k, (Z.of_nat k < i) -> nth_error r k = nth_error r' k.

Lemma agree_get A i k (r r' : list A) : agree i r r' -> k < i -> get r k = get r' k.
Proof.
  intros H Hk. unfold get. destruct (Z.ltb_spec k 0); [reflexivity|].
  rewrite (H (Z.to_nat k)) by lia. reflexivity.
Qed.

Lemma agree_set A i (r r' : list A) v s s' :
  agree i r r' -> 0 <= i -> set r i v = Ok s -> set r' i v = Ok s' -> agree (i + 1) s s'.
Proof.
  intros H Hi E1 E2. apply set_inv in E1 as [H1 ->]. apply set_inv in E2 as [H2 ->].
  unfold len in *. intros k Hk. destruct (Nat.eq_dec k (Z.to_nat i)) as [->|Hne].
  - rewrite !nth_error_upd_eq by lia. reflexivity.
  - rewrite !nth_error_upd_ne by lia. apply H; lia.
Qed.

Lemma agree_zeros A (z : A) n m i : i <= Z.of_nat n -> i <= Z.of_nat m -> agree i (repeat z n) (repeat z m).
Proof.
  intros H1 H2 k Hk. rewrite !nth_error_nth' with (d := z) by (rewrite repeat_length; lia).
  now rewrite !nth_repeat_lt by lia.
Qed.

Lemma agree_weaken A i j (r r' : list A) : agree i r r' -> j <= i -> agree j r r'.
Proof. intros H Hj k Hk; apply H; lia. Qed.

Lemma agree_prefix A (r r' : list A) : agree (len r) r r' -> (length r <= length r')%nat -> prefix r r'.
Proof.
  intros H Hl. exists (skipn (length r) r').
  rewrite <- (firstn_skipn (length r) r') at 1. f_equal.
  assert (E : length (firstn (length r) r') = length r) by (rewrite firstn_length; lia).
  unfold agree, len in H. clear Hl. revert r' H E. induction r as [|x r IH]; intros r' H E; [reflexivity|].
  destruct r' as [|y r']; [discriminate|]. cbn [firstn length] in *. f_equal.
  - assert (H0 := H 0%nat ltac:(lia)). cbn in H0. congruence.
  - apply IH; [|lia]. intros k Hk. specialize (H (S k)). cbn in H. apply H; lia.
Qed.

Lemma agree_set_above A i j (r r' s' : list A) v :
  agree i r r' -> i <= j -> set r' j v = Ok s' -> agree i r s'.
Proof.
  intros H Hj E. apply set_inv in E as [H2 ->]. intros k Hk.
  rewrite nth_error_upd_ne by lia. now apply H.
Qed.

Lemma set_length A (l : list A) i v l' : set l i v = Ok l' -> length l' = length l.
Proof. intros E; apply set_inv in E as [_ ->]. apply upd_length. Qed.

(** Two loops over the same body run on a series and on an extension of it. *)
Lemma resP_for S T (R : Z -> S -> T -> Prop) (Q : S -> T -> Prop) lo n m b1 b2 (s : S) (t : T) :
  n <= m -> R lo s t ->
  (forall i s t, lo <= i < n -> R i s t -> resP (R (i + 1)) (b1 i s) (b2 i t)) ->
  (forall i s t, n <= i -> R i s t -> Q s t) ->
  (forall i s t t', lo <= i -> n <= i < m -> Q s t -> b2 i t = Ok t' -> Q s t') ->
  resP Q (for_ lo n b1 s) (for_ lo m b2 t).
Proof.
  intros Hnm HR Hstep HQ Htail.
  assert (Tail : forall lo' t0 s0 t', lo <= lo' -> n <= lo' -> Q s0 t0 -> for_ lo' m b2 t0 = Ok t' -> Q s0 t').
  { intros lo' t0 s0 t' Hl0 Hl HQ0 E.
    destruct (Z.le_gt_cases lo' m) as [Hm|Hm].
    - eapply (@for_inv_ok T (fun _ t => Q s0 t)); [exact Hm|exact HQ0| |exact E].
      intros i s1 s2 Hi HQ1 Eb. eapply Htail; [| |exact HQ1|exact Eb]; lia.
    - rewrite for_empty in E by lia. injection E as <-. exact HQ0. }
  intros a b E1 E2.
  destruct (Z.le_gt_cases lo n) as [Hl|Hl].
  - rewrite (@for_split _ lo n m) in E2 by lia. apply bind_ok in E2 as (t1 & Et1 & E2).
    assert (HRn : R n a t1).
    { clear Tail HQ Htail E2 Hnm. revert s t HR Hstep E1 Et1. unfold for_.
      remember (Z.to_nat (n - lo)) as k eqn:Ek. revert lo Hl Ek.
      induction k as [|k IH]; intros lo Hl Ek s t HR Hstep E1 Et1; cbn [loop] in *.
      - injection E1 as <-; injection Et1 as <-. replace n with lo by lia. exact HR.
      - apply bind_ok in E1 as (s1 & Es1 & E1). apply bind_ok in Et1 as (t2 & Et2 & Et1).
        refine (IH (lo + 1) _ _ s1 t2 _ _ E1 Et1); try lia.
        + eapply Hstep; eauto; lia.
        + intros i s0 t0 Hi; apply Hstep; lia. }
    eapply Tail; [| |eapply HQ; [|exact HRn]|exact E2]; lia.
  - rewrite for_empty in E1 by lia. injection E1 as <-.
    eapply Tail; [| |eapply HQ; [|exact HR]|exact E2]; lia.
Qed.

(** The result slices of the two runs: [n] and [m >= n] long, and equal on the
    first [n] positions. *)
Definition Rlist {A} (n m : nat) (r r' : list A) : Prop :=
  length r = n /\ length r' = m /\ (n <= m)%nat /\ agree (Z.of_nat n) r r'.

Lemma Rlist_init A (z : A) n m : (n <= m)%nat -> Rlist n m (repeat z n) (repeat z m).
Proof.
  intros H. unfold Rlist. rewrite !repeat_length. repeat split; auto.
  apply agree_zeros; lia.
Qed.

Lemma Rlist_set A n m i (r r' : list A) v v' :
  Rlist n m r r' -> v = v' -> resP (Rlist n m) (set r i v) (set r' i v').
Proof.
  intros (H1 & H2 & H3 & H) <- s s' E1 E2.
  pose proof (set_length _ _ _ E1). pose proof (set_length _ _ _ E2).
  repeat split; try lia.
  apply set_inv in E1 as [R1 ->]. apply set_inv in E2 as [R2 ->].
  unfold len in *. intros k Hk. destruct (Nat.eq_dec k (Z.to_nat i)) as [->|Hne].
  - rewrite !nth_error_upd_eq by lia. reflexivity.
  - rewrite !nth_error_upd_ne by lia. apply H; lia.
Qed.

Lemma Rlist_get A n m (r r' : list A) k :
  Rlist n m r r' -> k < Z.of_nat n -> get r k = get r' k.
Proof. intros (H1 & H2 & H3 & H) Hn. eapply agree_get; eauto. Qed.

Lemma Rlist_prefix A n m (r r' : list A) : Rlist n m r r' -> prefix r r'.
Proof.
  intros (H1 & H2 & H3 & H). apply agree_prefix; [|lia].
  eapply agree_weaken; [exact H|unfold len; lia].
Qed.

Lemma Rlist_tail A n m i (r r' s' : list A) v :
  Rlist n m r r' -> Z.of_nat n <= i -> set r' i v = Ok s' -> Rlist n m r s'.
Proof.
  intros (H1 & H2 & H3 & H) Hi E. pose proof (set_length _ _ _ E).
  repeat split; try lia. eapply agree_set_above; eauto.
Qed.

(** Loops over a result slice [r] and further state [s]. *)
Lemma causal_from S A n m lo b1 b2 (s0 : S) (r0 r0' : list A) :
  Rlist n m r0 r0' ->
  (forall i s r r', lo <= i < Z.of_nat n -> Rlist n m r r' ->
     resP (fun x y => fst x = fst y /\ Rlist n m (snd x) (snd y)) (b1 i (s, r)) (b2 i (s, r'))) ->
  (forall i s r x, lo <= i -> Z.of_nat n <= i -> b2 i (s, r) = Ok x ->
     snd x = r \/ exists v, set r i v = Ok (snd x)) ->
  resP (fun x y => prefix (snd x) (snd y))
    (for_ lo (Z.of_nat n) b1 (s0, r0)) (for_ lo (Z.of_nat m) b2 (s0, r0')).
Proof.
  intros Hr Hstep Htail. assert (Hnm : (n <= m)%nat) by apply Hr.
  eapply resP_mono; [|eapply resP_for with
    (R := fun i x y => (i <= Z.of_nat n -> fst x = fst y) /\ Rlist n m (snd x) (snd y))
    (Q := fun x y => Rlist n m (snd x) (snd y))].
  - intros x y H. eapply Rlist_prefix; exact H.
  - lia.
  - split; [reflexivity|]. exact Hr.
  - intros i [s r] [t r'] Hi [H1 H2]. cbn [fst snd] in *. rewrite <- H1 by lia.
    eapply resP_mono; [|apply Hstep; [lia|exact H2]].
    intros x y [Hx Hy]; split; auto.
  - intros i x y Hi [_ H]. exact H.
  - intros i x [t r'] y Hl Hi H E. destruct (Htail i t r' y Hl ltac:(lia) E) as [->|[v Ev]]; [exact H|].
    cbn [snd] in *. eapply Rlist_tail; eauto. lia.
Qed.

Lemma causal_loop S A (z : A) n m lo b1 b2 (s0 : S) :
  (n <= m)%nat ->
  (forall i s r r', lo <= i < Z.of_nat n -> Rlist n m r r' ->
     resP (fun x y => fst x = fst y /\ Rlist n m (snd x) (snd y)) (b1 i (s, r)) (b2 i (s, r'))) ->
  (forall i s r x, lo <= i -> Z.of_nat n <= i -> b2 i (s, r) = Ok x ->
     snd x = r \/ exists v, set r i v = Ok (snd x)) ->
  resP (fun x y => prefix (snd x) (snd y))
    (for_ lo (Z.of_nat n) b1 (s0, repeat z n)) (for_ lo (Z.of_nat m) b2 (s0, repeat z m)).
Proof. intros Hnm. apply causal_from. apply Rlist_init; exact Hnm. Qed.

Lemma causal_from1 A n m lo (b1 b2 : Z -> list A -> res (list A)) r0 r0' :
  Rlist n m r0 r0' ->
  (forall i r r', lo <= i < Z.of_nat n -> Rlist n m r r' ->
     resP (Rlist n m) (b1 i r) (b2 i r')) ->
  (forall i r x, lo <= i -> Z.of_nat n <= i -> b2 i r = Ok x ->
     x = r \/ exists v, set r i v = Ok x) ->
  resP prefix (for_ lo (Z.of_nat n) b1 r0) (for_ lo (Z.of_nat m) b2 r0').
Proof.
  intros Hr Hstep Htail. assert (Hnm : (n <= m)%nat) by apply Hr.
  eapply resP_mono; [|eapply resP_for with
    (R := fun i x y => Rlist n m x y)
    (Q := fun x y => Rlist n m x y)].
  - intros x y H. eapply Rlist_prefix; exact H.
  - lia.
  - exact Hr.
  - intros i r r' Hi H. apply Hstep; auto.
  - intros i x y Hi H. exact H.
  - intros i x r' y Hl Hi H E. destruct (Htail i r' y Hl ltac:(lia) E) as [->|[v Ev]]; auto.
    eapply Rlist_tail; eauto. lia.
Qed.

Lemma causal_loop1 A (z : A) n m lo (b1 b2 : Z -> list A -> res (list A)) :
  (n <= m)%nat ->
  (forall i r r', lo <= i < Z.of_nat n -> Rlist n m r r' ->
     resP (Rlist n m) (b1 i r) (b2 i r')) ->
  (forall i r x, lo <= i -> Z.of_nat n <= i -> b2 i r = Ok x ->
     x = r \/ exists v, set r i v = Ok x) ->
  resP prefix
    (for_ lo (Z.of_nat n) b1 (repeat z n)) (for_ lo (Z.of_nat m) b2 (repeat z m)).
Proof. intros Hnm. apply causal_from1. apply Rlist_init; exact Hnm. Qed.

(** ** List facts *)
Lemma skipn_skipn_add A (l : list A) a b : skipn a (skipn b l) = skipn (b + a) l.
Proof. revert l; induction b as [|b IH]; intros l; [reflexivity|]. destruct l as [|x l]; cbn; [now rewrite skipn_nil|apply IH]. Qed.

Lemma skipn_S_nth A (l : list A) i d : (i < length l)%nat -> skipn i l = nth i l d :: skipn (S i) l.
Proof.
  revert i; induction l as [|x l IH]; intros [|i] H; cbn in *; try lia; auto. apply IH; lia.
Qed.

Lemma firstn_S_nth A (l : list A) i d : (i < length l)%nat -> firstn (S i) l = firstn i l ++ [nth i l d].
Proof.
  revert i; induction l as [|x l IH]; intros [|i] H; cbn in *; try lia; auto. f_equal. apply IH; lia.
Qed.

(** A loop whose last iteration always panics. *)
Lemma for_last_panic S lo hi (body : Z -> S -> res S) s :
  lo < hi -> (forall st, body (hi - 1) st = Panic) -> for_ lo hi body s = Panic.
Proof.
  intros H Hp. rewrite (@for_split _ lo (hi - 1) hi) by lia.
  destruct (for_ lo (hi - 1) body s) as [s'|]; cbn [bind]; [|reflexivity].
  rewrite for_step by lia. now rewrite Hp.
Qed.
Lemma for_first_panic S lo hi (body : Z -> S -> res S) s :
  lo < hi -> body lo s = Panic -> for_ lo hi body s = Panic.
Proof. intros H Hp. rewrite for_step by lia. now rewrite Hp. Qed.

Lemma len_pos A (l : list A) : l <> [] -> 0 < len l.
Proof. destruct l; [congruence|]. intros _. rewrite len_cons. pose proof (len_nonneg l). lia. Qed.

Lemma tab_const A n (c : A) : tab n (fun _ => c) = repeat c n.
Proof. induction n as [|n IH]; [reflexivity|]. rewrite tab_S, IH. symmetry. apply repeat_cons. Qed.
Lemma map_repeat A B (f : A -> B) (c : A) n : map f (repeat c n) = repeat (f c) n.
Proof. induction n as [|n IH]; cbn; [reflexivity|now rewrite IH]. Qed.
