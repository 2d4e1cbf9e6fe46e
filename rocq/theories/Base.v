(** * Base: panics, slices and loops of Go as total Gallina functions.

    A Go function that can panic becomes a function into [res].  Slices are
    lists with bounds-checked access.  Go's [int] is modelled by [Z] without
    wrap-around. *)
From Coq Require Export List ZArith Lia Bool Arith.
Export ListNotations.
Set Implicit Arguments.
Set Asymmetric Patterns.
Global Open Scope Z_scope.

(** A computation either returns a value or panics (run-time error: index out
    of range, make with negative length, integer division by zero, nil
    dereference, failed type assertion, explicit panic). *)
Inductive res (A : Type) : Type := Ok (a : A) | Panic.
Arguments Ok {A} a.
Arguments Panic {A}.

Definition bind {A B} (m : res A) (k : A -> res B) : res B :=
  match m with Ok a => k a | Panic => Panic end.

Declare Scope go_scope.
Delimit Scope go_scope with go.
Notation "x <- e ;; k" := (bind e (fun x => k))
  (at level 61, e at next level, right associativity) : go_scope.
Notation "' p <- e ;; k" := (bind e (fun x => match x with p => k end))
  (at level 61, p pattern, e at next level, right associativity) : go_scope.
Global Open Scope go_scope.

Definition rmap {A B} (f : A -> B) (m : res A) : res B :=
  match m with Ok a => Ok (f a) | Panic => Panic end.

Definition is_ok {A} (m : res A) : bool :=
  match m with Ok _ => true | Panic => false end.

(** [len(s)] *)
Definition len {A} (l : list A) : Z := Z.of_nat (length l).

(** [make([]T, n)]: panics when [n] is negative; [z] is T's zero value. *)
Definition make {A} (z : A) (n : Z) : res (list A) :=
  if n <? 0 then Panic else Ok (repeat z (Z.to_nat n)).

(** [s[i]] as an rvalue *)
Definition get {A} (l : list A) (i : Z) : res A :=
  if i <? 0 then Panic
  else match nth_error l (Z.to_nat i) with Some x => Ok x | None => Panic end.

Fixpoint upd {A} (l : list A) (k : nat) (v : A) : list A :=
  match l, k with
  | [], _ => []
  | _ :: l', O => v :: l'
  | x :: l', S k' => x :: upd l' k' v
  end.

(** [s[i] = v] *)
Definition set {A} (l : list A) (i : Z) (v : A) : res (list A) :=
  if (0 <=? i) && (i <? len l) then Ok (upd l (Z.to_nat i) v) else Panic.

(** [s[lo:hi]] (capacity is not modelled: slicing past [len] panics) *)
Definition slice {A} (l : list A) (lo hi : Z) : res (list A) :=
  if (0 <=? lo) && (lo <=? hi) && (hi <=? len l)
  then Ok (skipn (Z.to_nat lo) (firstn (Z.to_nat hi) l)) else Panic.

(** [for i := i0; <n more times>; i++ { body }] *)
Fixpoint loop {S} (n : nat) (i : Z) (body : Z -> S -> res S) (s : S) : res S :=
  match n with
  | O => Ok s
  | Datatypes.S n' => s' <- body i s ;; loop n' (i + 1) body s'
  end.

(** [for i := lo; i < hi; i++ { body }] *)
Definition for_ {S} (lo hi : Z) (body : Z -> S -> res S) (s : S) : res S :=
  loop (Z.to_nat (hi - lo)) lo body s.

(** [for i, v := range l { body }] *)
Definition range_ {A S} (l : list A) (body : Z -> A -> S -> res S) (s : S) : res S :=
  for_ 0 (len l) (fun i st => v <- get l i ;; body i v st) s.

(** Go's truncated integer division and remainder, panicking on zero. *)
Definition zdiv (a b : Z) : res Z := if b =? 0 then Panic else Ok (Z.quot a b).
Definition zmod (a b : Z) : res Z := if b =? 0 then Panic else Ok (Z.rem a b).

(* ------------------------------------------------------------------ *)
(** ** Lemmas about [get], [set], [make] *)

Lemma bind_ok A B (m : res A) (k : A -> res B) b :
  bind m k = Ok b -> exists a, m = Ok a /\ k a = Ok b.
Proof. destruct m; cbn; [eauto|discriminate]. Qed.

Lemma len_nonneg A (l : list A) : 0 <= len l.
Proof. unfold len; lia. Qed.

Lemma len_nil A : len (@nil A) = 0. Proof. reflexivity. Qed.
Lemma len_cons A (x : A) l : len (x :: l) = len l + 1.
Proof. unfold len; cbn [length]; lia. Qed.
Lemma len_app A (l1 l2 : list A) : len (l1 ++ l2) = len l1 + len l2.
Proof. unfold len; rewrite app_length; lia. Qed.
Lemma len_map A B (f : A -> B) l : len (map f l) = len l.
Proof. unfold len; now rewrite map_length. Qed.
Lemma len_repeat A (z : A) n : len (repeat z n) = Z.of_nat n.
Proof. unfold len; now rewrite repeat_length. Qed.

Lemma upd_length A (l : list A) k v : length (upd l k v) = length l.
Proof. revert k; induction l as [|x l IH]; intros [|k]; cbn; auto. Qed.

Lemma get_ok_iff A (l : list A) i x :
  get l i = Ok x <-> 0 <= i /\ nth_error l (Z.to_nat i) = Some x.
Proof.
  unfold get; destruct (Z.ltb_spec i 0) as [Hi|Hi].
  - split; [discriminate|lia].
  - destruct (nth_error l (Z.to_nat i)) as [y|]; split; intros H.
    + injection H as <-; auto.
    + destruct H as [_ H]; injection H as <-; auto.
    + discriminate.
    + destruct H; discriminate.
Qed.

Lemma get_range A (l : list A) i x : get l i = Ok x -> 0 <= i < len l.
Proof.
  rewrite get_ok_iff; intros [Hi H]. split; [exact Hi|].
  assert (Z.to_nat i < length l)%nat by (apply nth_error_Some; congruence).
  unfold len; lia.
Qed.

Lemma get_in_range A (l : list A) i :
  0 <= i < len l -> exists x, get l i = Ok x.
Proof.
  unfold len; intros Hi.
  destruct (nth_error l (Z.to_nat i)) as [x|] eqn:E.
  - exists x; apply get_ok_iff; split; [lia|exact E].
  - apply nth_error_None in E; lia.
Qed.

Lemma get_nth A (l : list A) i d :
  0 <= i < len l -> get l i = Ok (nth (Z.to_nat i) l d).
Proof.
  intros Hi; apply get_ok_iff; split; [lia|].
  apply nth_error_nth'; unfold len in Hi; lia.
Qed.

Lemma get_nat A (l : list A) (k : nat) d :
  (k < length l)%nat -> get l (Z.of_nat k) = Ok (nth k l d).
Proof.
  intros Hk; rewrite (get_nth l d) by (unfold len; lia).
  now rewrite Nat2Z.id.
Qed.

Lemma get_out A (l : list A) i : (i < 0 \/ len l <= i) -> get l i = Panic.
Proof.
  intros H; destruct (get l i) eqn:E; [|reflexivity].
  apply get_range in E; lia.
Qed.

Lemma get_app_l A (l t : list A) i x :
  get l i = Ok x -> get (l ++ t) i = Ok x.
Proof.
  rewrite !get_ok_iff; intros [Hi H]; split; [exact Hi|].
  rewrite nth_error_app1; [exact H|]. apply nth_error_Some; congruence.
Qed.

Lemma set_ok A (l : list A) i v :
  0 <= i < len l -> set l i v = Ok (upd l (Z.to_nat i) v).
Proof.
  intros Hi; unfold set.
  destruct (Z.leb_spec 0 i); [|lia]. destruct (Z.ltb_spec i (len l)); [|lia]. reflexivity.
Qed.

Lemma set_inv A (l : list A) i v l' :
  set l i v = Ok l' -> 0 <= i < len l /\ l' = upd l (Z.to_nat i) v.
Proof.
  unfold set; destruct (Z.leb_spec 0 i); cbn; [|discriminate].
  destruct (Z.ltb_spec i (len l)); [|discriminate].
  intros E; injection E as <-; split; [lia|reflexivity].
Qed.

Lemma set_out A (l : list A) i v : (i < 0 \/ len l <= i) -> set l i v = Panic.
Proof.
  intros H; destruct (set l i v) eqn:E; [|reflexivity].
  apply set_inv in E; lia.
Qed.

Lemma upd_app_l A (l t : list A) k v :
  (k < length l)%nat -> upd (l ++ t) k v = upd l k v ++ t.
Proof.
  revert k; induction l as [|x l IH]; intros [|k] Hk; cbn in *; try lia; auto.
  rewrite IH by lia; reflexivity.
Qed.

Lemma upd_app_r A (l t : list A) k v :
  (length l <= k)%nat -> upd (l ++ t) k v = l ++ upd t (k - length l) v.
Proof.
  revert k; induction l as [|x l IH]; intros k Hk; cbn in *.
  - now rewrite Nat.sub_0_r.
  - destruct k as [|k]; [lia|]; cbn. rewrite IH by lia; reflexivity.
Qed.

Lemma nth_error_upd_eq A (l : list A) k v :
  (k < length l)%nat -> nth_error (upd l k v) k = Some v.
Proof. revert k; induction l as [|x l IH]; intros [|k] Hk; cbn in *; try lia; auto. apply IH; lia. Qed.

Lemma nth_error_upd_ne A (l : list A) k j v :
  k <> j -> nth_error (upd l k v) j = nth_error l j.
Proof.
  revert k j; induction l as [|x l IH]; intros [|k] [|j] Hk; cbn in *; try lia; auto.
Qed.

Lemma nth_upd_eq A (l : list A) k v d :
  (k < length l)%nat -> nth k (upd l k v) d = v.
Proof. revert k; induction l as [|x l IH]; intros [|k] Hk; cbn in *; try lia; auto. apply IH; lia. Qed.

Lemma nth_upd_ne A (l : list A) k j v d :
  k <> j -> nth j (upd l k v) d = nth j l d.
Proof.
  revert k j; induction l as [|x l IH]; intros [|k] [|j] Hk; cbn in *; try lia; auto.
Qed.

Lemma set_app_l A (l t : list A) i v l' :
  set l i v = Ok l' -> set (l ++ t) i v = Ok (l' ++ t).
Proof.
  intros E; apply set_inv in E as [Hi ->].
  rewrite set_ok by (rewrite len_app; pose proof (len_nonneg t); lia).
  rewrite upd_app_l by (unfold len in Hi; lia). reflexivity.
Qed.

Lemma make_ok A (z : A) n : 0 <= n -> make z n = Ok (repeat z (Z.to_nat n)).
Proof. unfold make; destruct (Z.ltb_spec n 0); [lia|reflexivity]. Qed.

Lemma make_neg A (z : A) n : n < 0 -> make z n = Panic.
Proof. unfold make; destruct (Z.ltb_spec n 0); [reflexivity|lia]. Qed.

Lemma make_len A B (z : A) (l : list B) : make z (len l) = Ok (repeat z (length l)).
Proof. rewrite make_ok by apply len_nonneg. unfold len; now rewrite Nat2Z.id. Qed.

(* ------------------------------------------------------------------ *)
(** ** Loop rules *)

Lemma loop_app S n m i (body : Z -> S -> res S) s :
  loop (n + m) i body s =
  (s' <- loop n i body s ;; loop m (i + Z.of_nat n) body s').
Proof.
  revert i s; induction n as [|n IH]; intros i s.
  - cbn. rewrite Z.add_0_r; reflexivity.
  - cbn [Nat.add loop]. destruct (body i s) as [s'|]; cbn [bind]; [|reflexivity].
    rewrite IH. replace (i + 1 + Z.of_nat n) with (i + Z.of_nat (Datatypes.S n)) by lia.
    reflexivity.
Qed.

Lemma for_empty S lo hi (body : Z -> S -> res S) s : hi <= lo -> for_ lo hi body s = Ok s.
Proof. intros H; unfold for_. replace (Z.to_nat (hi - lo)) with 0%nat by lia. reflexivity. Qed.

Lemma for_step S lo hi (body : Z -> S -> res S) s :
  lo < hi -> for_ lo hi body s = (s' <- body lo s ;; for_ (lo + 1) hi body s').
Proof.
  intros H; unfold for_. replace (Z.to_nat (hi - lo)) with (Datatypes.S (Z.to_nat (hi - (lo + 1)))) by lia.
  reflexivity.
Qed.

Lemma for_split S lo mid hi (body : Z -> S -> res S) s :
  lo <= mid <= hi ->
  for_ lo hi body s = (s' <- for_ lo mid body s ;; for_ mid hi body s').
Proof.
  intros H; unfold for_.
  replace (Z.to_nat (hi - lo)) with (Z.to_nat (mid - lo) + Z.to_nat (hi - mid))%nat by lia.
  rewrite loop_app. replace (lo + Z.of_nat (Z.to_nat (mid - lo))) with mid by lia. reflexivity.
Qed.

(** Total-correctness invariant rule. *)
Lemma for_inv S (I : Z -> S -> Prop) lo hi (body : Z -> S -> res S) s0 :
  lo <= hi -> I lo s0 ->
  (forall i s, lo <= i < hi -> I i s -> exists s', body i s = Ok s' /\ I (i + 1) s') ->
  exists s', for_ lo hi body s0 = Ok s' /\ I hi s'.
Proof.
  intros Hle H0 Hstep. unfold for_.
  remember (Z.to_nat (hi - lo)) as n eqn:En.
  revert lo s0 Hle H0 Hstep En.
  induction n as [|n IH]; intros lo s0 Hle H0 Hstep En.
  - exists s0; split; [reflexivity|]. replace hi with lo by lia. exact H0.
  - cbn [loop]. destruct (Hstep lo s0 ltac:(lia) H0) as (s1 & E1 & H1).
    rewrite E1; cbn [bind]. apply IH; try lia; auto.
    intros i s Hi HI; apply Hstep; [lia|exact HI].
Qed.

(** Partial-correctness invariant rule. *)
Lemma for_inv_ok S (I : Z -> S -> Prop) lo hi (body : Z -> S -> res S) s0 s' :
  lo <= hi -> I lo s0 ->
  (forall i s s1, lo <= i < hi -> I i s -> body i s = Ok s1 -> I (i + 1) s1) ->
  for_ lo hi body s0 = Ok s' -> I hi s'.
Proof.
  intros Hle H0 Hstep. unfold for_.
  remember (Z.to_nat (hi - lo)) as n eqn:En.
  revert lo s0 Hle H0 Hstep En.
  induction n as [|n IH]; intros lo s0 Hle H0 Hstep En E.
  - cbn in E; injection E as <-. replace hi with lo by lia. exact H0.
  - cbn [loop] in E. apply bind_ok in E as (s1 & E1 & E2).
    refine (IH (lo + 1) s1 _ _ _ _ E2); try lia.
    + apply (Hstep lo s0 s1); [lia|exact H0|exact E1].
    + intros i s s2 Hi HI Eb. apply (Hstep i s s2); [lia|exact HI|exact Eb].
Qed.

(** A deterministic loop whose state after [k] iterations is known. *)
Lemma for_det S (st : Z -> S) lo hi (body : Z -> S -> res S) :
  lo <= hi ->
  (forall i, lo <= i < hi -> body i (st i) = Ok (st (i + 1))) ->
  for_ lo hi body (st lo) = Ok (st hi).
Proof.
  intros Hle Hstep.
  destruct (@for_inv S (fun i s => s = st i) lo hi body (st lo) Hle eq_refl) as (s' & E & ->).
  - intros i s Hi ->. exists (st (i + 1)); split; [apply Hstep; exact Hi|reflexivity].
  - exact E.
Qed.

Lemma for_ext S lo hi (b1 b2 : Z -> S -> res S) s :
  (forall i st, lo <= i < hi -> b1 i st = b2 i st) ->
  for_ lo hi b1 s = for_ lo hi b2 s.
Proof.
  unfold for_. remember (Z.to_nat (hi - lo)) as n eqn:En. revert lo s En.
  induction n as [|n IH]; intros lo s En H; [reflexivity|].
  cbn [loop]. rewrite H by lia. destruct (b2 lo s); cbn [bind]; [|reflexivity].
  apply IH; [lia|]. intros i st Hi; apply H; lia.
Qed.

(** A loop panics if some iteration is reached and panics. *)
Lemma for_panic_at S (I : Z -> S -> Prop) lo mid hi (body : Z -> S -> res S) s0 :
  lo <= mid < hi -> I lo s0 ->
  (forall i s, lo <= i < mid -> I i s -> exists s', body i s = Ok s' /\ I (i + 1) s') ->
  (forall s, I mid s -> body mid s = Panic) ->
  for_ lo hi body s0 = Panic.
Proof.
  intros Hm H0 Hstep Hp.
  rewrite (@for_split _ lo mid hi) by lia.
  destruct (@for_inv S I lo mid body s0 ltac:(lia) H0 Hstep) as (s1 & E1 & H1).
  rewrite E1; cbn [bind]. rewrite for_step by lia. rewrite Hp by exact H1. reflexivity.
Qed.

(* ------------------------------------------------------------------ *)
(** ** Tabulated results: a slice whose entry [k] is [f k] *)

Definition tab {A} (n : nat) (f : nat -> A) : list A := map f (seq 0 n).

Lemma tab_length A n (f : nat -> A) : length (tab n f) = n.
Proof. unfold tab; now rewrite map_length, seq_length. Qed.

Lemma tab_S A n (f : nat -> A) : tab (S n) f = tab n f ++ [f n].
Proof. unfold tab. rewrite seq_S, map_app. reflexivity. Qed.

Lemma tab_ext A n (f g : nat -> A) :
  (forall k, (k < n)%nat -> f k = g k) -> tab n f = tab n g.
Proof.
  intros H; unfold tab. apply map_ext_in. intros k Hk. apply in_seq in Hk. apply H; lia.
Qed.

Lemma tab_nth A n (f : nat -> A) k d : (k < n)%nat -> nth k (tab n f) d = f k.
Proof.
  intros Hk. unfold tab. rewrite nth_indep with (d' := f 0%nat) by (rewrite map_length, seq_length; lia).
  rewrite map_nth, seq_nth by lia. reflexivity.
Qed.

Lemma tab_nth_error A n (f : nat -> A) k : (k < n)%nat -> nth_error (tab n f) k = Some (f k).
Proof.
  intros Hk. erewrite nth_error_nth' with (d := f 0%nat) by (rewrite tab_length; lia).
  now rewrite tab_nth.
Qed.

Lemma tab_app A n m (f : nat -> A) : tab (n + m) f = tab n f ++ tab m (fun k => f (n + k)%nat).
Proof.
  unfold tab. rewrite seq_app, map_app. f_equal. cbn [Nat.add].
  replace (seq n m) with (map (fun k => (n + k)%nat) (seq 0 m)).
  - now rewrite map_map.
  - clear f. revert n; induction m as [|m IH]; intros n; [reflexivity|].
    rewrite seq_S, map_app, IH. cbn [Nat.add map]. now rewrite seq_S.
Qed.

Lemma tab_of_list A (l : list A) d : l = tab (length l) (fun k => nth k l d).
Proof.
  induction l as [|x l IH] using rev_ind; [reflexivity|].
  rewrite app_length, Nat.add_1_r, tab_S. rewrite IH at 1. f_equal.
  - apply tab_ext; intros k Hk. now rewrite app_nth1.
  - rewrite app_nth2, Nat.sub_diag by lia. reflexivity.
Qed.

Lemma list_eq_nth A (l1 l2 : list A) d :
  length l1 = length l2 ->
  (forall k, (k < length l1)%nat -> nth k l1 d = nth k l2 d) -> l1 = l2.
Proof.
  intros Hl H. rewrite (tab_of_list l1 d), (tab_of_list l2 d), <- Hl. apply tab_ext, H.
Qed.

Lemma nth_repeat_lt A (z : A) n k d : (k < n)%nat -> nth k (repeat z n) d = z.
Proof. revert k; induction n as [|n IH]; intros [|k] H; cbn; auto; try lia. apply IH; lia. Qed.

(** A partly filled result slice: entries below [i] computed, the rest still
    zero, is what loops of the form [result[i] = ...] maintain. *)
Definition partial {A} (z : A) (f : nat -> A) (n i : nat) : list A :=
  tab i f ++ repeat z (n - i).

Lemma partial_0 A (z : A) f n : partial z f n 0 = repeat z n.
Proof. unfold partial; cbn. now rewrite Nat.sub_0_r. Qed.

Lemma partial_full A (z : A) f n : partial z f n n = tab n f.
Proof. unfold partial; rewrite Nat.sub_diag; cbn. apply app_nil_r. Qed.

Lemma partial_length A (z : A) f n i : (i <= n)%nat -> length (partial z f n i) = n.
Proof. intros H; unfold partial. rewrite app_length, tab_length, repeat_length; lia. Qed.

Lemma partial_len A (z : A) f n i : (i <= n)%nat -> len (partial z f n i) = Z.of_nat n.
Proof. intros H; unfold len; now rewrite partial_length. Qed.

Lemma partial_upd A (z : A) f n i :
  (i < n)%nat -> upd (partial z f n i) i (f i) = partial z f n (S i).
Proof.
  intros H; unfold partial. rewrite upd_app_r by (rewrite tab_length; lia).
  rewrite tab_length, Nat.sub_diag.
  replace (n - i)%nat with (S (n - S i)) by lia. cbn [repeat upd].
  rewrite tab_S, <- app_assoc. reflexivity.
Qed.

Lemma partial_set A (z : A) f n i v :
  (i < n)%nat -> v = f i ->
  set (partial z f n i) (Z.of_nat i) v = Ok (partial z f n (S i)).
Proof.
  intros H ->. rewrite set_ok by (rewrite partial_len; lia).
  rewrite Nat2Z.id, partial_upd by exact H. reflexivity.
Qed.

Lemma partial_get A (z : A) f n i k :
  (k < i)%nat -> (i <= n)%nat -> get (partial z f n i) (Z.of_nat k) = Ok (f k).
Proof.
  intros Hk Hi. apply get_ok_iff; split; [lia|].
  rewrite Nat2Z.id. unfold partial. rewrite nth_error_app1 by (rewrite tab_length; lia).
  now apply tab_nth_error.
Qed.

(** Skipping an index leaves its zero in place. *)
Lemma partial_skip A (z : A) f n i :
  (i < n)%nat -> f i = z -> partial z f n i = partial z f n (S i).
Proof.
  intros H E. rewrite <- partial_upd by exact H. rewrite E.
  unfold partial. rewrite upd_app_r by (rewrite tab_length; lia).
  rewrite tab_length, Nat.sub_diag. replace (n - i)%nat with (S (n - S i)) by lia. reflexivity.
Qed.

Lemma partial_skips A (z : A) f n i :
  (i <= n)%nat -> (forall k, (k < i)%nat -> f k = z) -> repeat z n = partial z f n i.
Proof.
  intros Hi H; induction i as [|i IH].
  - now rewrite partial_0.
  - rewrite IH by (intros; try apply H; lia). apply partial_skip; [lia|]. apply H; lia.
Qed.

(* ------------------------------------------------------------------ *)
(** ** Windows *)

(** The last [min (i+1) p] values ending at index [i]. *)
Definition window {A} (l : list A) (i p : nat) : list A :=
  skipn (S i - p) (firstn (S i) l).

Lemma window_length A (l : list A) i p :
  (i < length l)%nat -> length (window l i p) = Nat.min (S i) p.
Proof. intros H; unfold window. rewrite skipn_length, firstn_length. lia. Qed.

Lemma nth_skipn A (l : list A) k j d : nth j (skipn k l) d = nth (k + j) l d.
Proof. revert k; induction l as [|x l IH]; intros [|k]; cbn; auto; destruct j; auto. Qed.

Lemma nth_firstn_lt A (l : list A) k j d : (j < k)%nat -> nth j (firstn k l) d = nth j l d.
Proof. revert k j; induction l as [|x l IH]; intros [|k] [|j] H; cbn; auto; try lia. apply IH; lia. Qed.

Lemma window_nth A (l : list A) i p j d :
  (i < length l)%nat -> (j < Nat.min (S i) p)%nat ->
  nth j (window l i p) d = nth (S i - Nat.min (S i) p + j) l d.
Proof.
  intros Hi Hj; unfold window. rewrite nth_skipn.
  replace (S i - Nat.min (S i) p)%nat with (S i - p)%nat by lia.
  apply nth_firstn_lt; lia.
Qed.

(* ------------------------------------------------------------------ *)
(** ** Prefixes and causality *)

Definition prefix {A} (l1 l2 : list A) : Prop := exists t, l2 = l1 ++ t.

Lemma prefix_refl A (l : list A) : prefix l l.
Proof. exists []; now rewrite app_nil_r. Qed.

Lemma prefix_trans A (a b c : list A) : prefix a b -> prefix b c -> prefix a c.
Proof. intros [t ->] [u ->]; exists (t ++ u); now rewrite app_assoc. Qed.

Lemma prefix_length A (a b : list A) : prefix a b -> (length a <= length b)%nat.
Proof. intros [t ->]; rewrite app_length; lia. Qed.

Lemma prefix_nth_error A (a b : list A) k x :
  prefix a b -> nth_error a k = Some x -> nth_error b k = Some x.
Proof.
  intros [t ->] H. rewrite nth_error_app1; [exact H|]. apply nth_error_Some; congruence.
Qed.

Lemma prefix_map A B (f : A -> B) a b : prefix a b -> prefix (map f a) (map f b).
Proof. intros [t ->]; exists (map f t); apply map_app. Qed.

Lemma prefix_tab A n m (f g : nat -> A) :
  (n <= m)%nat -> (forall k, (k < n)%nat -> f k = g k) -> prefix (tab n f) (tab m g).
Proof.
  intros Hnm H. replace m with (n + (m - n))%nat by lia. rewrite tab_app.
  eexists. f_equal. symmetry. now apply tab_ext.
Qed.

Lemma prefix_iff_nth A (a b : list A) d :
  prefix a b <->
  (length a <= length b)%nat /\ forall k, (k < length a)%nat -> nth k a d = nth k b d.
Proof.
  split.
  - intros [t ->]; split; [rewrite app_length; lia|]. intros k Hk. now rewrite app_nth1.
  - intros [Hl H]. rewrite (tab_of_list a d), (tab_of_list b d). now apply prefix_tab.
Qed.

Lemma prefix_firstn A (a b : list A) : prefix a b -> firstn (length a) b = a.
Proof. intros [t ->]. rewrite firstn_app, Nat.sub_diag, firstn_all. apply app_nil_r. Qed.

(** [f] never looks ahead: extending the input only extends the output. *)
Definition causal {A B} (f : list A -> res (list B)) : Prop :=
  forall xs ys r r', f xs = Ok r -> f (xs ++ ys) = Ok r' -> prefix r r'.

(** Simulation of one computation by another. *)
Definition simr {A B} (R : A -> B -> Prop) (m1 : res A) (m2 : res B) : Prop :=
  forall a, m1 = Ok a -> exists b, m2 = Ok b /\ R a b.

Lemma simr_ok A B (R : A -> B -> Prop) a b : R a b -> simr R (Ok a) (Ok b).
Proof. intros H x E; injection E as <-; eauto. Qed.

Lemma simr_panic A B (R : A -> B -> Prop) m : simr R Panic m.
Proof. intros x E; discriminate. Qed.

Lemma simr_bind A B A' B' (R : A -> B -> Prop) (Q : A' -> B' -> Prop) m1 m2 k1 k2 :
  simr R m1 m2 -> (forall a b, R a b -> simr Q (k1 a) (k2 b)) -> simr Q (bind m1 k1) (bind m2 k2).
Proof.
  intros H Hk x E. apply bind_ok in E as (a & Ea & Ek).
  destruct (H a Ea) as (b & Eb & Hab). rewrite Eb; cbn. eapply Hk; eauto.
Qed.

Lemma simr_for S T (R : S -> T -> Prop) lo hi b1 b2 s t :
  R s t ->
  (forall i s t, lo <= i < hi -> R s t -> simr R (b1 i s) (b2 i t)) ->
  simr R (for_ lo hi b1 s) (for_ lo hi b2 t).
Proof.
  unfold for_. remember (Z.to_nat (hi - lo)) as n eqn:En. revert lo s t En.
  induction n as [|n IH]; intros lo s t En H Hb; cbn [loop].
  - now apply simr_ok.
  - eapply simr_bind; [apply Hb; [lia|exact H]|]. intros a b Hab.
    apply IH; [lia|exact Hab|]. intros i s0 t0 Hi; apply Hb; lia.
Qed.
