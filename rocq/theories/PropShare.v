(** * PropShare: items in memory, C103 (separate items) and C104 (items that share a slice). *)
From Coq Require Import String Permutation.
From Verif Require Import Base Num Lits Klines TaTools KlineMem SpecKlines SpecShare KlineProofs1 KlineMemProofs PropHelpers PropKlines.
Set Implicit Arguments.
Unset Strict Implicit.
Open Scope Z_scope.

(** ** C103: items that share nothing do not influence each other *)

(** Whatever is done, in however many steps, with items from which neither the
    array nor a candle of [x] can be reached, [x] shows the same candles. *)
Theorem C103_apart (N : Num) (m m' : Mem) (P P' : list MItem) (x : MItem) (l : list (nat * Candle)) :
  shows m x l -> Forall (apart m x l) P -> steps m P m' P' -> shows m' x l /\ candles_of m' x = Ok (map snd l).
Proof.
  intros Hx HP St. assert (H : shows m' x l) by exact (apart_steps Hx HP St). exact (conj H (read_candles H)).
Qed.
Print Assumptions C103_apart.

(** RemoveOutsideRangeCopy, ToHeikinAshi and ConvertToNewInterval change nothing
    that any item showed before, and nothing done with their result ever will. *)
Theorem C103_made (N : Num) (m m1 m2 : Mem) (e r x : MItem) (l : list (nat * Candle)) (P2 : list MItem) :
  made m e m1 r -> shows m x l -> steps m1 [r] m2 P2 -> shows m1 x l /\ shows m2 x l.
Proof.
  intros H Hx St. destruct (made_old H Hx) as [A B]. split; [exact A|]. refine (apart_steps A _ St). repeat constructor; apply B.
Qed.
Print Assumptions C103_made.
(** And nothing done with the items that existed before changes the result. *)
Theorem C103_origin (N : Num) (m m1 m2 : Mem) (e r : MItem) (l : list (nat * Candle)) (P P2 : list MItem) :
  solid m -> made m e m1 r -> shows m1 r l -> Forall (fun f => (mArr f < length (arrs m))%nat) P ->
  steps m1 P m2 P2 -> shows m2 r l.
Proof.
  intros Hs H Hl HP St. refine (apart_steps Hl _ St). rewrite Forall_forall in *. intros f Hf. exact (made_new Hs H Hl (HP f Hf)).
Qed.
Print Assumptions C103_origin.

(** The functions on items in memory compute what their list versions (C32, C35)
    say. *)
Theorem C103_HeikinAshi (N : Num) (m : Mem) (e : MItem) (l : list (nat * Candle)) : shows m e l ->
  exists m' r l', mToHeikinAshi m e = Ok (m', r) /\ shows m' r l' /\
    ToHeikinAshi (item_of e (map snd l)) = Ok (item_of r (map snd l')).
Proof. exact (@HeikinAshi_mem N m e l). Qed.
Print Assumptions C103_HeikinAshi.
Theorem C103_Convert (N : Num) (m : Mem) (e : MItem) (l : list (nat * Candle)) (now i : Z) : shows m e l ->
  match ConvertToNewInterval now (Some (item_of e (map snd l))) i with
  | Panic => mConvertToNewInterval now m e i = Panic
  | Ok (inl err) => mConvertToNewInterval now m e i = Ok (inl err)
  | Ok (inr p) => exists m' r, mConvertToNewInterval now m e i = Ok (inr (m', r)) /\ sees m' r (pCandles p) /\
      pExchange p = mExchange r /\ pInterval p = mInterval r /\ pSymbol p = mSymbol r /\ pCode p = mCode r
  end.
Proof.
  intros Hs. pose proof (Convert_mem now i Hs) as H.
  destruct (mConvertToNewInterval now m e i) as [[x|[m' r]]|], (ConvertToNewInterval now _ i) as [[y|p]|]; try (now destruct H); cbn in H.
  exists m', r. split; [reflexivity|exact H].
Qed.
Print Assumptions C103_Convert.

(** Beside the theorems: an hour of two half-hour candles.  The memory is solid, the
    item shows its two candles, all three functions succeed on it; clearing the
    copy and writing a new candle into the original are steps. *)
Definition m2x : @Mem EX := mkMem [kx 2 1 2 1 1 3600; kx 5 2 3 2 4 5400] [[Some 0%nat; Some 1%nat]].
Definition e2x : MItem := mkMItem "X" (1800 * second) "S" "C" 0 2.
Definition l2x : list (nat * @Candle EX) := [(0%nat, kx 2 1 2 1 1 3600); (1%nat, kx 5 2 3 2 4 5400)].
Example C103_hyp : solid m2x /\ shows m2x e2x l2x /\
  (exists m1 r l1, RemoveOutsideRangeCopy m2x e2x (unix 3600) (unix 7200) = Ok (m1, r) /\ made m2x e2x m1 r /\ shows m1 r l1 /\
     (exists m2 r2, steps m1 [r] m2 [r2] /\ shows m2 r2 [])) /\
  (exists m1 r l1, mToHeikinAshi m2x e2x = Ok (m1, r) /\ made m2x e2x m1 r /\ shows m1 r l1) /\
  match mConvertToNewInterval (unix 9000) m2x e2x (3600 * second) with
  | Ok (inr (m1, r)) => rmap (map cTime) (candles_of m1 r) = Ok [3600]
  | _ => False
  end.
Proof.
  assert (Hs : shows m2x e2x l2x) by (repeat split; cbn; auto; repeat constructor).
  split; [|split; [exact Hs|split; [|split]]].
  - intros [|[|a]] p; cbn; intuition (try discriminate); match goal with H : Some _ = Some _ |- _ => injection H as <- end; lia.
  - destruct (@C29_Copy EX m2x e2x l2x (unix 3600) (unix 7200) Hs) as (m1 & r & l1 & E & S & _). exists m1, r, l1.
    split; [exact E|]. split; [eapply made_copy; exact E|]. split; [exact S|].
    destruct (@C94_Clear EX m1 r l1 S) as (m2 & E2 & S2 & _). exists m2, (with_len r 0). split; [|exact S2].
    eapply more_steps; [|apply no_step]. exact (@does_Clear _ m1 [r] 0 r m2 _ eq_refl E2).
  - destruct (@C103_HeikinAshi EX m2x e2x l2x Hs) as (m1 & r & l1 & E & S & _). exists m1, r, l1. split; [exact E|]. split; [eapply made_heikin; exact E|exact S].
  - vm_compute. reflexivity.
Qed.

(** ** C104: what an item sees of edits made through another item with its slice *)

(** RemoveDuplicates and RemoveOutsideRange move what they keep to the front of the
    array and leave the rest as it was: an item that shares the array sees the kept
    candles followed by its own old candles from that position on. *)
Theorem C104_RemoveDuplicates (N : Num) (m m' : Mem) (e e' f : MItem) (l lf : list (nat * Candle)) :
  shows m e l -> shows m f lf -> shares_array e f -> RemoveDuplicates m e = Ok (m', e') ->
  let kept := select (is_first l) l in
  shows m' e' kept /\ shows m' f (kept ++ skipn (length kept) lf).
Proof.
  intros He Hf Hsh E kept. destruct (RemoveDuplicates_spec He) as (m1 & e1 & E1 & S1 & A1 & O1). rewrite E in E1. injection E1 as <- <-.
  split; [exact S1|]. assert (Ha : (mArr e < length (arrs m))%nat) by apply He. destruct (fronted_dups Ha E) as (pts & P1 & P2).
  refine (front_view He Hf Hsh S1 A1 O1 _ P1 P2). unfold kept. rewrite select_sel. apply sel_length.
Qed.
Print Assumptions C104_RemoveDuplicates.
Theorem C104_RemoveOutsideRange (N : Num) (m m' : Mem) (e e' f : MItem) (l lf : list (nat * Candle)) (start end_ : Z) :
  shows m e l -> shows m f lf -> shares_array e f -> RemoveOutsideRange m e start end_ = Ok (m', e') ->
  let kept := filter (fun pc => within start end_ (cTime (snd pc))) l in
  shows m' e' kept /\ shows m' f (kept ++ skipn (length kept) lf).
Proof.
  intros He Hf Hsh E kept. destruct (RemoveOutsideRange_within start end_ He) as (m1 & e1 & E1 & S1 & A1 & O1). rewrite E in E1. injection E1 as <- <-.
  split; [exact S1|]. assert (Ha : (mArr e < length (arrs m))%nat) by apply He. destruct (fronted_range Ha E) as (pts & P1 & P2).
  refine (front_view He Hf Hsh S1 A1 O1 _ P1 P2). unfold kept. clear. induction l as [|x l IH]; cbn; [lia|]. destruct (within _ _ _); cbn; lia.
Qed.
Print Assumptions C104_RemoveOutsideRange.
(** After RemoveDuplicates the other item still has a candle of every time stamp it
    had. *)
Theorem C104_no_time_lost (N : Num) (m m' : Mem) (e e' f : MItem) (l lf : list (nat * Candle)) :
  shows m e l -> shows m f lf -> shares_array e f -> RemoveDuplicates m e = Ok (m', e') ->
  exists lf', shows m' f lf' /\ length lf' = length lf /\
    forall pc, In pc lf -> exists pc', In pc' lf' /\ cTime (snd pc') = cTime (snd pc).
Proof.
  intros He Hf Hsh E. destruct (C104_RemoveDuplicates He Hf Hsh E) as [_ S]. set (kept := select (is_first l) l) in *.
  destruct (share_prefix He Hf Hsh) as [t ->].
  assert (Lk : (length kept <= length l)%nat) by (unfold kept; rewrite select_sel; apply sel_length).
  eexists. split; [exact S|]. split; [rewrite app_length, skipn_length, app_length; lia|].
  intros pc Hin. apply in_app_or in Hin as [Hin|Hin].
  - destruct (firsts_cover l pc Hin) as (pc' & H1 & H2). exists pc'. split; [apply in_or_app; now left|exact H2].
  - exists pc. split; [|reflexivity]. apply in_or_app. right. rewrite skipn_app. apply in_or_app. right.
    replace (length kept - length l)%nat with 0%nat by lia. exact Hin.
Qed.
Print Assumptions C104_no_time_lost.
(** Sorting through one item sorts the shared part for the other one too. *)
Theorem C104_Sort (N : Num) (m m' : Mem) (e f : MItem) (l lf : list (nat * Candle)) (desc : bool) :
  shows m e l -> shows m f lf -> shares_array e f -> mSortCandlesByTimestamp desc m e m' ->
  exists sorted, Permutation l sorted /\ SortCandlesByTimestamp desc (map snd l) (map snd sorted) /\
    shows m' e sorted /\ shows m' f (sorted ++ skipn (length l) lf).
Proof.
  intros He Hf Hsh (old & so & Pm & Ss & Hl & Hfi & HF & ->).
  assert (Eo : old = l).
  { assert (Ho : shows m e old) by (split; [apply He|]; auto). 
    destruct (share_prefix He Ho (conj eq_refl (Z.le_refl _))) as [t Et]. assert (L : length old = length l).
    { destruct He as (_ & He & _). rewrite Hl in He. unfold len in He. lia. }
    rewrite Et, app_length in L. destruct t; [now rewrite app_nil_r in Et|cbn in L; lia]. }
  subst old. exists so. split; [exact Pm|]. split; [exact Ss|].
  assert (L : length so = length l) by (symmetry; now apply Permutation_length).
  assert (Fs : Forall (fun pc => nth_error (cells m) (fst pc) = Some (snd pc)) so).
  { rewrite Forall_forall in *. intros pc Hin. apply HF. eapply Permutation_in; [symmetry; exact Pm|exact Hin]. }
  assert (Ha : (mArr e < length (arrs m))%nat) by apply He.
  set (m' := set_arr m (mArr e) _).
  assert (Ea : arr_of m' (mArr e) = fronted (arr_of m (mArr e)) (map (fun pc => Some (fst pc)) so)).
  { unfold m'. rewrite arr_set_same by exact Ha. unfold fronted. now rewrite map_length, L. }
  assert (La : length (arrs m') = length (arrs m)) by (unfold m', set_arr; cbn; now rewrite upd_length).
  split.
  - pose proof (@fronted_shows N m m' e l so He ltac:(lia) eq_refl La Ea Fs) as S.
    rewrite L, skipn_all, app_nil_r in S. exact S.
  - destruct Hsh as [Sa Sl]. rewrite <- L. apply (@fronted_shows N m m' f lf so Hf); auto.
    + assert (G1 : mLen e = len l) by apply He. assert (G2 : mLen f = len lf) by apply Hf. rewrite G1, G2 in Sl. unfold len in Sl. lia.
    + now rewrite Sa.
Qed.
Print Assumptions C104_Sort.
(** After one item is cleared the other one holds nil pointers: every function that
    reads its candles crashes. *)
Theorem C104_Clear (N : Num) (m m' : Mem) (e e' f : MItem) (l lf : list (nat * Candle)) :
  shows m e l -> shows m f lf -> shares_array e f -> Clear m e = Ok (m', e') ->
  mLen f = len lf /\ (forall i, 0 <= i < len l -> mget m' f i = Ok None) /\ (l <> [] -> candles_of m' f = Panic).
Proof.
  intros He Hf [Sa Sl] E. destruct (@C94_Clear N m e l He) as (m1 & E1 & _ & _ & Ea). rewrite E in E1. injection E1 as <- ->.
  assert (G1 : mLen e = len l) by apply He. assert (G2 : mLen f = len lf) by apply Hf. rewrite G1, G2 in Sl.
  assert (Hg : forall i, 0 <= i < len l -> mget m' f i = Ok None).
  { intros i Hi. unfold mget. rewrite G2. replace (i <? len lf) with true by (symmetry; apply Z.ltb_lt; lia).
    rewrite Sa, Ea. apply get_ok_iff. split; [lia|]. unfold len in Hi. rewrite nth_error_app1 by (rewrite repeat_length; lia).
    apply nth_error_repeat. lia. }
  split; [exact G2|]. split; [exact Hg|]. intros Hne. unfold candles_of. apply for_first_panic.
  - rewrite G2. pose proof (len_pos Hne). lia.
  - unfold candle_at. rewrite Hg; [reflexivity|]. pose proof (len_pos Hne). lia.
Qed.
Print Assumptions C104_Clear.
(** Appending to an item that has been shortened overwrites the candle the other
    item has at that place. *)
Theorem C104_append (N : Num) (m : Mem) (e f : MItem) (l lf : list (nat * Candle)) (c : Candle) (extra : nat) :
  shows m e l -> shows m f lf -> mArr f = mArr e -> mLen e < mLen f ->
  let '(m1, q) := alloc m c in
  let '(m2, e2) := mappend m1 e (Some q) extra in
  shows m2 e2 (l ++ [(q, c)]) /\ shows m2 f (l ++ (q, c) :: skipn (S (length l)) lf).
Proof.
  intros He Hf Sa Sl. unfold alloc, mappend. cbn [fst snd].
  change (arr_of (mkMem (cells m ++ [c]) (arrs m)) (mArr e)) with (arr_of m (mArr e)).
  assert (G1 : mLen e = len l) by apply He. assert (G2 : mLen f = len lf) by apply Hf.
  assert (Hl : (length l < length lf)%nat) by (rewrite G1, G2 in Sl; unfold len in Sl; lia).
  pose proof (show_length Hf) as Hfl. rewrite Sa in Hfl.
  replace (Z.to_nat (mLen e)) with (length l) by (rewrite G1; unfold len; lia).
  replace (length l <? length (arr_of m (mArr e)))%nat with true by (symmetry; apply Nat.ltb_lt; lia).
  set (q := length (cells m)). set (m1 := mkMem (cells m ++ [c]) (arrs m)). set (m2 := set_arr m1 (mArr e) _).
  assert (Ha : (mArr e < length (arrs m1))%nat) by apply He.
  assert (La : length (arrs m2) = length (arrs m1)) by (unfold m2, set_arr; cbn; now rewrite upd_length).
  assert (Up : forall x lx, shows m x lx -> shows m1 x lx).
  { intros x lx (H1 & H2 & H3 & H4). split; [exact H1|]. split; [exact H2|]. split; [exact H3|].
    rewrite Forall_forall in *. intros pc Hin. cbn. rewrite nth_error_app1; [now apply H4|]. apply nth_error_Some. rewrite H4 by exact Hin. discriminate. }
  assert (Ea : arr_of m2 (mArr e) = fronted (arr_of m1 (mArr e)) (map (fun pc => Some (fst pc)) (l ++ [(q, c)]))).
  { unfold m2. rewrite arr_set_same by exact Ha. change (arr_of m1 (mArr e)) with (arr_of m (mArr e)). unfold fronted.
    rewrite map_length, app_length, map_app. cbn [length map fst]. destruct He as (_ & _ & He & _). rewrite <- He.
    rewrite <- skipn_skipn_add. rewrite <- (firstn_skipn (length l) (arr_of m (mArr e))) at 1.
    rewrite upd_app_r by (rewrite firstn_length; lia). rewrite firstn_length, Nat.min_l, Nat.sub_diag by lia. rewrite <- app_assoc. f_equal.
    destruct (skipn (length l) (arr_of m (mArr e))) as [|y t] eqn:Es; [apply (f_equal (@length _)) in Es; rewrite skipn_length in Es; cbn in Es; lia|].
    reflexivity. }
  assert (Fs : Forall (fun pc => nth_error (cells m1) (fst pc) = Some (snd pc)) (l ++ [(q, c)])).
  { apply Forall_app. split; [apply (Up _ _ He)|]. constructor; [|constructor]. cbn. unfold q. now rewrite nth_error_app2, Nat.sub_diag by lia. }
  split.
  - split; [cbn; rewrite upd_length; exact Ha|]. split; [cbn; rewrite len_app, G1; reflexivity|]. split; [|exact Fs].
    cbn [mArr with_len]. rewrite Ea. unfold fronted. rewrite <- (map_length (fun pc => Some (fst pc)) (l ++ [(q, c)])) at 1. apply firstn_app_exact.
  - pose proof (@fronted_shows N m1 m2 f lf (l ++ [(q, c)]) (Up _ _ Hf)) as S. rewrite Sa in S. specialize (S ltac:(rewrite app_length; cbn; lia) eq_refl La Ea Fs).
    rewrite app_length in S. cbn [length] in S. rewrite Nat.add_1_r, <- app_assoc in S. exact S.
Qed.
Print Assumptions C104_append.

(** Beside the theorems: a second item with the slice of [ex_item] (time stamps 60,
    60, 120, 60).  After RemoveDuplicates through the first it shows 60, 120, 120,
    60; after RemoveOutsideRange to [100, 200) it shows 120, 60, 120, 60. *)
Definition twin : MItem := mkMItem "Y" (60 * second) "" "" 0 4.
Example C104_hyp : shows mx ex_item lx /\ shows mx twin lx /\ shares_array ex_item twin /\
  match RemoveDuplicates mx ex_item with
  | Ok (m1, e1) => rmap (map cTime) (candles_of m1 twin) = Ok [60; 120; 120; 60] /\
                   rmap (map cTime) (candles_of m1 e1) = Ok [60; 120] /\ (mLen e1 <? mLen twin) = true
  | Panic => False
  end /\
  match RemoveOutsideRange mx ex_item (unix 100) (unix 200) with
  | Ok (m1, e1) => rmap (map cTime) (candles_of m1 twin) = Ok [120; 60; 120; 60]
  | Panic => False
  end /\
  match Clear mx ex_item with Ok (m1, e1) => rmap (map cTime) (candles_of m1 twin) = Panic | Panic => False end.
Proof.
  split; [exact (proj1 C28_hyp)|]. split; [repeat split; cbn; auto; repeat constructor|]. split; [split; [reflexivity|cbn; lia]|].
  split; [|split]; vm_compute; repeat split; reflexivity.
Qed.
