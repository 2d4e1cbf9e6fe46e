(** * TaNan: the moving maximum and minimum of a slice whose first value is NaN.

    The NaN becomes the root of the search tree and every other value goes to its left: until the NaN is
    dropped the maximum is NaN and the minimum is that of the other values.  Afterwards nothing is left of it. *)
From Coq Require Import PeanoNat.
From Verif Require Import Base Num Order Containers Ta TaTools.
Set Implicit Arguments.
Open Scope Z_scope.

Section Nan.
Context {N : Num}.
Hypothesis O : OrdLaws N.
Local Notation fl := (list F).
Variables (pick : tree F -> option F) (x0 : F) (h : option F -> F).
Hypothesis Hx : isNaN x0 = true.
Hypothesis pickN : forall t, pick (Node t x0 Leaf) = Some (h (pick t)).
Hypothesis pick0 : pick Leaf = None.

Lemma cmp_nan v : cmpF v x0 = Ok 0.
Proof.
  unfold cmpF, compareFloat64. destruct (ol_lt_nan O v x0 (or_intror Hx)) as [-> _]. destruct (ol_lt_nan O x0 v (or_introl Hx)) as [-> _]. reflexivity.
Qed.
Lemma ins_nan t v : tInsert cmpF (Node t x0 Leaf) v = rmap (fun t' => Node t' x0 Leaf) (tInsert cmpF t v).
Proof. cbn [tInsert]. rewrite cmp_nan. cbn [bind Z.leb Z.compare]. destruct (tInsert cmpF t v); reflexivity. Qed.
Lemma rem_nan t v : tRemove cmpF (Node t x0 Leaf) v = Ok (t, true).
Proof. cbn [tRemove]. rewrite cmp_nan. cbn [bind Z.eqb]. unfold removeNode. destruct t; reflexivity. Qed.
Lemma ins_ok (t : tree F) v : exists t', tInsert cmpF t v = Ok t'.
Proof.
  induction t as [|l IHl x r IHr]; [eexists; reflexivity|]. cbn [tInsert]. destruct (cmpF v x) as [c|] eqn:C; [|discriminate]. cbn [bind]. destruct (c <=? 0).
  - destruct IHl as [l' ->]. eexists; reflexivity.
  - destruct IHr as [r' ->]. eexists; reflexivity.
Qed.

Definition step (p : Z) (xs : fl) (i : Z) (s : tree F * fl * fl) : res (tree F * fl * fl) :=
  let '(t, buffer, r) := s in
  v <- get xs i;; t <- tInsert cmpF t v;;
  t <- (if i >=? p then m <- zmod i p;; old <- get buffer m;; '(t, _) <- tRemove cmpF t old;; Ok t else Ok t);;
  m <- zmod i p;; buffer <- set buffer m v;;
  x <- assertF (pick t);; r <- set r i x;; Ok (t, buffer, r).
Lemma moving_step p xs : moving pick p xs =
  (result <- make fzero (len xs) ;; buffer <- make fzero p ;; '(_, _, r) <- for_ 0 (len xs) (step p xs) (Leaf, buffer, result) ;; Ok r).
Proof. unfold moving. reflexivity. Qed.
Lemma mod_shift (i p : nat) : (1 <= p)%nat -> (1 <= i)%nat -> zmod (Z.of_nat i) (Z.of_nat p) = Ok (Z.of_nat (i mod p)).
Proof.
  intros Hp Hi. unfold zmod. destruct (Z.eqb_spec (Z.of_nat p) 0); [lia|]. rewrite Z.rem_mod_nonneg by lia. now rewrite Nat2Z.inj_mod.
Qed.
Lemma mod_inj (i j p : nat) : (1 <= p)%nat -> (j < i)%nat -> (i <= j + (p - 1))%nat -> (i mod p)%nat <> (j mod p)%nat.
Proof.
  intros Hp H1 H2 Heq. pose proof (Nat.div_mod i p ltac:(lia)). pose proof (Nat.div_mod j p ltac:(lia)).
  rewrite Heq in *. assert ((i / p)%nat <> (j / p)%nat) by (intros Hq; rewrite Hq in *; lia).
  assert (p * (j / p) < p * (i / p))%nat by lia. assert (j / p < i / p)%nat by nia.
  assert (p * (j / p) + p <= p * (i / p))%nat by nia. lia.
Qed.

Lemma moving_nan (p : nat) (ys r' : fl) : (1 <= p)%nat -> moving pick (Z.of_nat p) ys = Ok r' ->
  length r' = length ys /\
  exists r, moving pick (Z.of_nat p) (x0 :: ys) = Ok r /\ length r = S (length ys) /\ nth 0 r fzero = h None /\
    forall i, (i < length ys)%nat -> nth (S i) r fzero = if (S i <? p)%nat then h (Some (nth i r' fzero)) else nth i r' fzero.
Proof.
  intros Hp E'. rewrite moving_step in E' |- *. rewrite make_len in E' |- *. cbn [bind] in E' |- *. rewrite make_ok in E' |- * by lia. cbn [bind] in E' |- *.
  rewrite Nat2Z.id in *. set (n := length ys) in *. set (s0 := (Leaf, repeat fzero p, repeat fzero n)) in E'.
  destruct (for_ 0 (len ys) (step (Z.of_nat p) ys) s0) as [[[tz bz] rz]|] eqn:Ez; [|discriminate]. cbn [bind] in E'. injection E' as <-.
  assert (Pre : forall i, (i <= n)%nat -> exists s, for_ 0 (Z.of_nat i) (step (Z.of_nat p) ys) s0 = Ok s).
  { intros i Hi. rewrite (@for_split _ 0 (Z.of_nat i) (len ys)) in Ez by (unfold len; fold n; lia). destruct (for_ 0 (Z.of_nat i) _ s0) as [s|]; [eauto|discriminate]. }
  set (xs := x0 :: ys). cbn [length]. fold n.
  change (len xs) with (Z.of_nat (S n)). rewrite for_step by lia.
  assert (E0 : step (Z.of_nat p) xs 0 (Leaf, repeat fzero p, fzero :: repeat fzero n) =
    Ok (Node Leaf x0 Leaf, upd (repeat fzero p) 0 x0, h None :: repeat fzero n)).
  { unfold step. change (get xs 0) with (Ok x0). cbn [bind tInsert]. destruct (Z.geb_spec 0 (Z.of_nat p)); [lia|]. cbn [bind].
    unfold zmod. destruct (Z.eqb_spec (Z.of_nat p) 0); [lia|]. rewrite Z.rem_0_l by lia. cbn [bind].
    rewrite set_ok by (unfold len; rewrite repeat_length; lia). cbn [bind]. rewrite pickN, pick0. cbn [assertF bind].
    rewrite set_ok by (unfold len; cbn [length]; lia). reflexivity. }
  change (repeat fzero (length xs)) with (fzero :: repeat fzero n). rewrite E0. cbn [bind]. clear E0.
  set (I := fun (i : nat) (s : tree F * fl * fl) => let '(t, buf, r) := s in
    exists t' buf' rr, for_ 0 (Z.of_nat (i - 1)) (step (Z.of_nat p) ys) s0 = Ok (t', buf', rr) /\
      t = (if (i <=? p)%nat then Node t' x0 Leaf else t') /\
      length buf = p /\ (forall j, (j < i)%nat -> (i <= j + p)%nat -> nth (j mod p) buf fzero = nth j xs fzero) /\
      length buf' = p /\ (forall j, (j < i - 1)%nat -> (i - 1 <= j + p)%nat -> nth (j mod p) buf' fzero = nth j ys fzero) /\
      length r = S n /\ length rr = n /\ nth 0 r fzero = h None /\
      (forall k, (S k < i)%nat -> nth (S k) r fzero = if (S k <? p)%nat then h (Some (nth k rr fzero)) else nth k rr fzero)).
  destruct (@for_inv_nat _ I 1 (S n) (step (Z.of_nat p) xs) (Node Leaf x0 Leaf, upd (repeat fzero p) 0 x0, h None :: repeat fzero n)) as ([[t buf] r] & E & HI).
  - lia.
  - exists Leaf, (repeat fzero p), (repeat fzero n). split; [now rewrite for_empty by lia|].
    destruct (Nat.leb_spec 1 p); [|lia]. split; [reflexivity|]. split; [now rewrite upd_length, repeat_length|].
    split; [intros j H1 H2; assert (j = 0)%nat as -> by lia; rewrite Nat.mod_0_l by lia; apply nth_upd_eq; rewrite repeat_length; lia|].
    split; [apply repeat_length|]. split; [intros; lia|]. split; [cbn; now rewrite repeat_length|]. split; [apply repeat_length|]. split; [reflexivity|]. intros; lia.
  - intros i [[t buf] r] Hi (t' & buf' & rr & EE & Et & Lb & Hb & Lb' & Hb' & Lr & Lrr & Hr0 & Hr).
    destruct (Pre i ltac:(lia)) as ([[t1' b1'] r1'] & E1).
    assert (E2 : step (Z.of_nat p) ys (Z.of_nat (i - 1)) (t', buf', rr) = Ok (t1', b1', r1')).
    { rewrite (@for_split _ 0 (Z.of_nat (i - 1)) (Z.of_nat i)) in E1 by lia. rewrite EE in E1. cbn [bind] in E1.
      rewrite for_step in E1 by lia. destruct (step _ _ (Z.of_nat (i - 1)) _) as [s|]; [|discriminate]. cbn [bind] in E1. rewrite for_empty in E1 by lia. exact E1. }
    set (v := nth (i - 1) ys fzero). assert (Hv : get ys (Z.of_nat (i - 1)) = Ok v) by (apply get_nat; lia).
    assert (Hvx : get xs (Z.of_nat i) = Ok v).
    { rewrite (@get_nat _ xs i fzero) by (cbn; lia). unfold xs, v. destruct i; [lia|]. cbn [nth]. now rewrite Nat.sub_succ, Nat.sub_0_r. }
    unfold step in E2. rewrite Hv in E2. cbn [bind] in E2. destruct (ins_ok t' v) as (t2 & Ei). rewrite Ei in E2. cbn [bind] in E2.
    assert (Hmod : (i mod p < p)%nat) by (apply Nat.mod_upper_bound; lia).
    assert (Hmod' : ((i - 1) mod p < p)%nat) by (apply Nat.mod_upper_bound; lia).
    assert (Z1 : zmod (Z.of_nat (i - 1)) (Z.of_nat p) = Ok (Z.of_nat ((i - 1) mod p))).
    { unfold zmod. destruct (Z.eqb_spec (Z.of_nat p) 0); [lia|]. rewrite Z.rem_mod_nonneg by lia. now rewrite Nat2Z.inj_mod. }
    rewrite Z1 in E2. cbn [bind] in E2. rewrite (@get_nat _ buf' _ fzero) in E2 by lia. cbn [bind] in E2.
    assert (Old' : (p <= i - 1)%nat -> nth ((i - 1) mod p) buf' fzero = nth (i - 1 - p) ys fzero).
    { intros Hq. rewrite <- (Hb' (i - 1 - p)%nat) by lia. f_equal. replace (i - 1)%nat with (i - 1 - p + 1 * p)%nat at 1 by lia. apply Nat.mod_add. lia. }
    assert (Old : (p <= i)%nat -> nth (i mod p) buf fzero = nth (i - p) xs fzero).
    { intros Hq. rewrite <- (Hb (i - p)%nat) by lia. f_equal. replace i with (i - p + 1 * p)%nat at 1 by lia. apply Nat.mod_add. lia. }
    assert (B : forall b, length b = p -> (forall j, (j < i)%nat -> (i <= j + p)%nat -> nth (j mod p) b fzero = nth j xs fzero) ->
      forall j, (j < S i)%nat -> (S i <= j + p)%nat -> nth (j mod p) (upd b (i mod p) v) fzero = nth j xs fzero).
    { intros b L Hj j J1 J2. destruct (Nat.eq_dec j i) as [->|Hne].
      - rewrite nth_upd_eq by lia. rewrite (@get_nat _ xs i fzero) in Hvx by (cbn; lia). congruence.
      - rewrite nth_upd_ne; [apply Hj; lia|]. apply mod_inj; lia. }
    assert (B' : forall b, length b = p -> (forall j, (j < i - 1)%nat -> (i - 1 <= j + p)%nat -> nth (j mod p) b fzero = nth j ys fzero) ->
      forall j, (j < S i - 1)%nat -> (S i - 1 <= j + p)%nat -> nth (j mod p) (upd b ((i - 1) mod p) v) fzero = nth j ys fzero).
    { intros b L Hj j J1 J2. destruct (Nat.eq_dec j (i - 1)) as [->|Hne].
      - rewrite nth_upd_eq by lia. reflexivity.
      - rewrite nth_upd_ne; [apply Hj; lia|]. apply mod_inj; lia. }
    (* the tree after this step *)
    assert (Tree : exists t3, (if Z.of_nat (i - 1) >=? Z.of_nat p then '(t0, _) <- tRemove cmpF t2 (nth ((i - 1) mod p) buf' fzero);; Ok t0 else Ok t2) = Ok t3 /\
      (t4 <- tInsert cmpF t v;; (if Z.of_nat i >=? Z.of_nat p then old <- get buf (Z.of_nat (i mod p));; '(t0, _) <- tRemove cmpF t4 old;; Ok t0 else Ok t4)) =
        Ok (if (S i <=? p)%nat then Node t3 x0 Leaf else t3)).
    { subst t. destruct (Nat.leb_spec i p) as [C|C].
      - destruct (Z.geb_spec (Z.of_nat (i - 1)) (Z.of_nat p)); [lia|]. exists t2. split; [reflexivity|].
        rewrite ins_nan, Ei. cbn [rmap bind]. destruct (Z.geb_spec (Z.of_nat i) (Z.of_nat p)).
        + rewrite (@get_nat _ buf _ fzero) by lia. cbn [bind]. rewrite rem_nan. cbn [bind]. destruct (Nat.leb_spec (S i) p); [lia|reflexivity].
        + destruct (Nat.leb_spec (S i) p); [reflexivity|lia].
      - destruct (Z.geb_spec (Z.of_nat (i - 1)) (Z.of_nat p)) as [G|G]; [|lia].
        destruct (tRemove cmpF t2 _) as [[t3 b]|] eqn:Er in E2; [|cbn [bind] in E2; destruct (Z.geb_spec (Z.of_nat (i - 1)) (Z.of_nat p)); [discriminate|lia]].
        rewrite Er. exists t3. split; [reflexivity|]. rewrite Ei. cbn [bind]. destruct (Z.geb_spec (Z.of_nat i) (Z.of_nat p)); [|lia].
        rewrite (@get_nat _ buf _ fzero) by lia. cbn [bind]. rewrite Old by lia. rewrite Old' in Er by lia.
        replace (nth (i - p) xs fzero) with (nth (i - 1 - p) ys fzero).
        2:{ unfold xs. destruct (i - p)%nat as [|d] eqn:D; [lia|]. cbn [nth]. f_equal. lia. }
        rewrite Er. cbn [bind]. destruct (Nat.leb_spec (S i) p); [lia|reflexivity]. }
    destruct Tree as (t3 & T1 & T2). rewrite T1 in E2. cbn [bind] in E2. rewrite set_ok in E2 by (unfold len; lia). cbn [bind] in E2. rewrite Nat2Z.id in E2.
    destruct (pick t3) as [x|] eqn:Ep; [|discriminate]. cbn [assertF bind] in E2. rewrite set_ok in E2 by (unfold len; lia). cbn [bind] in E2.
    rewrite Nat2Z.id in E2. injection E2 as <- <- <-.
    set (t5 := if (S i <=? p)%nat then Node t3 x0 Leaf else t3) in *.
    assert (P5 : pick t5 = Some (if (S i <=? p)%nat then h (Some x) else x)).
    { unfold t5. destruct (S i <=? p)%nat; [rewrite pickN, Ep; reflexivity|exact Ep]. }
    exists (t5, upd buf (i mod p) v, upd r i (if (S i <=? p)%nat then h (Some x) else x)). split.
    + unfold step. rewrite Hvx. cbn [bind]. rewrite (@mod_shift i p) by lia. cbn [bind].
      destruct (tInsert cmpF t v) as [t4|]; [|discriminate]. cbn [bind] in T2 |- *. rewrite T2. cbn [bind].
      rewrite set_ok by (unfold len; lia). cbn [bind]. rewrite P5. cbn [assertF bind]. rewrite set_ok by (unfold len; lia). cbn [bind]. now rewrite !Nat2Z.id.
    + exists t3, (upd buf' ((i - 1) mod p) v), (upd rr (i - 1) x). split; [replace (S i - 1)%nat with i by lia; exact E1|].
      split; [reflexivity|]. split; [now rewrite upd_length|]. split; [now apply B|]. split; [now rewrite upd_length|]. split; [now apply B'|].
      split; [now rewrite upd_length|]. split; [now rewrite upd_length|]. split; [rewrite nth_upd_ne by lia; exact Hr0|].
      intros k Hk. destruct (Nat.eq_dec (S k) i) as [<-|Hne].
      * rewrite nth_upd_eq by lia. replace (S k - 1)%nat with k by lia. rewrite nth_upd_eq by lia. reflexivity.
      * rewrite !nth_upd_ne by lia. apply Hr. lia.
  - destruct HI as (t' & buf' & rr & EE & _ & _ & _ & _ & _ & Lr & Lrr & Hr0 & Hr).
    replace (Z.of_nat (S n - 1)) with (len ys) in EE by (unfold len; fold n; lia). rewrite Ez in EE. injection EE as -> -> ->.
    split; [exact Lrr|]. exists r. change (0 + 1) with (Z.of_nat 1). rewrite E. cbn [bind]. split; [reflexivity|]. split; [exact Lr|]. split; [exact Hr0|].
    intros i Hi. apply Hr. lia.
Qed.
End Nan.

Section MaxMin.
Context {N : Num}.
Hypothesis O : OrdLaws N.
Local Notation fl := (list F).

(** ta.Max (ta.go:727-745): NaN for a whole window, then the maximum of the others. *)
Lemma Max_nan (p : nat) (x0 : F) (ys r' : fl) : isNaN x0 = true -> (1 <= p)%nat -> Max (Z.of_nat p) ys = Ok r' ->
  length r' = length ys /\
  exists r, Max (Z.of_nat p) (x0 :: ys) = Ok r /\ length r = S (length ys) /\
    forall i, (i < S (length ys))%nat -> nth i r fzero = if (i <? p)%nat then x0 else nth (i - 1) r' fzero.
Proof.
  intros Hx Hp E. destruct (@moving_nan N O (@tMax F) x0 (fun _ => x0) Hx ltac:(intros t; reflexivity) eq_refl p ys r' Hp E) as (L & r & Er & Lr & H0 & Hr).
  split; [exact L|]. exists r. split; [exact Er|]. split; [exact Lr|]. intros [|i] Hi.
  - rewrite H0. destruct (Nat.ltb_spec 0 p); [reflexivity|lia].
  - rewrite Hr by lia. now rewrite Nat.sub_succ, Nat.sub_0_r.
Qed.
Lemma tMin_node (t : tree F) : forall l y r, t = Node l y r -> tMin t <> None.
Proof.
  induction t as [|l IHl x r _]; intros l0 y0 r0 E; [discriminate|]. cbn [tMin]. destruct l as [|l1 x1 r1]; [discriminate|]. now apply (IHl l1 x1 r1).
Qed.
(** ta.Min (ta.go:748-766): the NaN is ignored, except at its own index. *)
Lemma Min_nan (p : nat) (x0 : F) (ys r' : fl) : isNaN x0 = true -> (1 <= p)%nat -> Min (Z.of_nat p) ys = Ok r' ->
  length r' = length ys /\
  exists r, Min (Z.of_nat p) (x0 :: ys) = Ok r /\ length r = S (length ys) /\
    forall i, (i < S (length ys))%nat -> nth i r fzero = match i with 0%nat => x0 | S k => nth k r' fzero end.
Proof.
  intros Hx Hp E.
  destruct (@moving_nan N O (@tMin F) x0 (fun o => match o with Some m => m | None => x0 end) Hx) with (p := p) (ys := ys) (r' := r') as (L & r & Er & Lr & H0 & Hr); try assumption.
  - intros t. destruct t as [|l y r0]; [reflexivity|]. destruct (tMin (Node l y r0)) eqn:M; [|now apply (@tMin_node _ _ _ _ eq_refl) in M].
    change (tMin (Node (Node l y r0) x0 Leaf)) with (tMin (Node l y r0)). now rewrite M.
  - reflexivity.
  - split; [exact L|]. exists r. split; [exact Er|]. split; [exact Lr|]. intros [|i] Hi; [exact H0|]. rewrite Hr by lia. now destruct (S i <? p)%nat.
Qed.
End MaxMin.
