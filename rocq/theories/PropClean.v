(** * PropClean: C109, the steps that clean a list of candles may be taken in any order. *)
From Coq Require Import String Lia Permutation.
From Verif Require Import Base Num B64 Lits Klines SpecKlines KlineProofs1 CleanTools PropKlines.
Set Implicit Arguments.
Unset Strict Implicit.
Open Scope Z_scope.

(** RemoveDuplicates and RemoveOutsideRange: the same candles in either order. *)
Theorem C109_either_order (N : Num) (m : Mem) (e : MItem) (l : list (nat * Candle)) (start end_ : Z) :
  shows m e l -> exists m1 e1 m2 e2 n1 f1 n2 f2 result,
    RemoveDuplicates m e = Ok (m1, e1) /\ RemoveOutsideRange m1 e1 start end_ = Ok (m2, e2) /\ shows m2 e2 result /\
    RemoveOutsideRange m e start end_ = Ok (n1, f1) /\ RemoveDuplicates n1 f1 = Ok (n2, f2) /\ shows n2 f2 result.
Proof.
  intros H. destruct (C28_RemoveDuplicates _ _ _ _ H) as (m1 & e1 & E1 & S1 & _). destruct (C29_RemoveOutsideRange _ _ _ _ start end_ S1) as (m2 & e2 & E2 & S2 & _).
  destruct (C29_RemoveOutsideRange _ _ _ _ start end_ H) as (n1 & f1 & F1 & T1 & _). destruct (C28_RemoveDuplicates _ _ _ _ T1) as (n2 & f2 & F2 & T2 & _).
  exists m1, e1, m2, e2, n1, f1, n2, f2. eexists. split; [exact E1|]. split; [exact E2|]. split; [exact S2|]. split; [exact F1|]. split; [exact F2|].
  pose proof (firsts_filter (fun t => within start end_ t) l) as Q. unfold firsts, time_of in Q. rewrite Q in T2. exact T2.
Qed.
Print Assumptions C109_either_order.

(** Two ranges, one after the other, leave the candles in both; in either order. *)
Theorem C109_ranges_intersect (N : Num) (m : Mem) (e : MItem) (l : list (nat * Candle)) (s1 t1 s2 t2 : Z) :
  shows m e l -> exists m1 e1 m2 e2,
    RemoveOutsideRange m e s1 t1 = Ok (m1, e1) /\ RemoveOutsideRange m1 e1 s2 t2 = Ok (m2, e2) /\
    shows m2 e2 (filter (fun pc => within s1 t1 (cTime (snd pc)) && within s2 t2 (cTime (snd pc))) l).
Proof.
  intros H. destruct (C29_RemoveOutsideRange _ _ _ _ s1 t1 H) as (m1 & e1 & E1 & S1 & _). destruct (C29_RemoveOutsideRange _ _ _ _ s2 t2 S1) as (m2 & e2 & E2 & S2 & _).
  exists m1, e1, m2, e2. split; [exact E1|]. split; [exact E2|].
  replace (filter (fun pc => within s1 t1 (cTime (snd pc)) && within s2 t2 (cTime (snd pc))) l) with (filter (fun pc => within s2 t2 (cTime (snd pc))) (filter (fun pc => within s1 t1 (cTime (snd pc))) l)); [exact S2|].
  clear. induction l as [|x l IH]; [reflexivity|]. cbn [filter]. destruct (within s1 t1 _); cbn [filter andb]; [|exact IH]. destruct (within s2 t2 _); now rewrite IH.
Qed.
Print Assumptions C109_ranges_intersect.
(** In particular the same range again changes nothing. *)
Theorem C109_range_again (N : Num) (m : Mem) (e : MItem) (l l1 : list (nat * Candle)) (s t : Z) (m1 : Mem) (e1 : MItem) :
  shows m e l -> RemoveOutsideRange m e s t = Ok (m1, e1) -> shows m1 e1 l1 ->
  exists m2 e2, RemoveOutsideRange m1 e1 s t = Ok (m2, e2) /\ shows m2 e2 l1.
Proof.
  intros H E S1. destruct (C29_RemoveOutsideRange _ _ _ _ s t H) as (n1 & f1 & E' & S1' & _). rewrite E in E'. injection E' as <- <-.
  pose proof (shows_same S1 S1') as ->. destruct (C29_RemoveOutsideRange _ _ _ _ s t S1) as (m2 & e2 & E2 & S2 & _). exists m2, e2. split; [exact E2|].
  replace (filter (fun pc => within s t (cTime (snd pc))) l) with (filter (fun pc => within s t (cTime (snd pc))) (filter (fun pc => within s t (cTime (snd pc))) l)); [exact S2|].
  clear. induction l as [|x l IH]; [reflexivity|]. cbn [filter]. destruct (within s t (cTime (snd x))) eqn:W; cbn [filter]; [rewrite W; now rewrite IH|exact IH].
Qed.
Print Assumptions C109_range_again.

(** Sorting candles without duplicate times has one result only, whatever sort.Slice
    does; so candles that were cleaned and then sorted do not depend on the order they
    came in. *)
Theorem C109_sort_unique (N : Num) (desc : bool) (l1 l2 l1' l2' : list Candle) :
  NoDup (map cTime l1) -> Permutation l1 l2 ->
  SortCandlesByTimestamp desc l1 l1' -> SortCandlesByTimestamp desc l2 l2' -> l1' = l2'.
Proof.
  intros Nd P S1 S2. destruct (C30_partial _ _ _ _ S1) as [P1 O1]. destruct (C30_partial _ _ _ _ S2) as [P2 O2].
  assert (Q : Permutation l1' l2') by (etransitivity; [symmetry; exact P1|]; etransitivity; [exact P|exact P2]).
  assert (Nd1 : NoDup (map cTime l1')) by (eapply Permutation_NoDup; [apply Permutation_map; exact P1|exact Nd]).
  destruct desc.
  - apply (@sorted_unique N (fun a b => a <= b)); auto. intros a b; lia.
  - apply (@sorted_unique N (fun a b => b <= a)); auto. intros a b; lia.
Qed.
Print Assumptions C109_sort_unique.
(** With duplicate times it has several: sorting first and removing duplicates afterwards
    may keep either candle. *)
Theorem C109_sort_first_differs : exists (l l1 l2 : list (@Candle EX)),
  SortCandlesByTimestamp true l l1 /\ SortCandlesByTimestamp true l l2 /\
  select (is_first (map (pair 0%nat) l1)) l1 <> select (is_first (map (pair 0%nat) l2)) l2.
Proof.
  set (a := kx 1 1 1 1 1 60). set (b := kx 2 2 2 2 2 60). exists [a; b], [a; b], [b; a].
  assert (So : forall x y : @Candle EX, cTime x = cTime y -> SortCandlesByTimestamp true [x; y] [x; y]).
  { intros x y E. split; [reflexivity|]. constructor; [|constructor; [intros z []|constructor]]. intros z [<-|[]]. cbn. rewrite E. apply Z.ltb_irrefl. }
  split; [now apply So|]. split.
  - destruct (So b a eq_refl) as [_ S]. split; [apply perm_swap|exact S].
  - intros E. apply (f_equal (fun l => map (@cOpen EX) l)) in E. discriminate E.
Qed.
Print Assumptions C109_sort_first_differs.

Example C109_hyp : shows mx ex_item lx /\ NoDup (map cTime [kx 1 1 1 1 1 120; kx 2 2 2 2 2 60]) /\
  Permutation [kx 1 1 1 1 1 120; kx 2 2 2 2 2 60] [kx 2 2 2 2 2 60; kx 1 1 1 1 1 120].
Proof. split; [apply C28_hyp|]. split; [|apply perm_swap]. constructor; [intros [E|[]]; discriminate|]. constructor; [intros []|constructor]. Qed.
