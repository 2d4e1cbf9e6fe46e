(** * KlineMemProofs: frames for items in memory, and agreement of the memory
    functions with the functions on lists of candles. *)
From Coq Require Import String Permutation.
From Verif Require Import Base Num Klines TaTools KlineMem SpecKlines SpecShare KlineProofs1 KlineProofs3 Sim.
Set Implicit Arguments.
Unset Strict Implicit.

Lemma for_keeps S (I : S -> Prop) lo hi (body : Z -> S -> res S) s s' :
  I s -> (forall i s s1, I s -> body i s = Ok s1 -> I s1) -> for_ lo hi body s = Ok s' -> I s'.
Proof.
  intros H0 Hs E. destruct (Z_le_gt_dec lo hi) as [H|H].
  - exact (@for_inv_ok _ (fun _ => I) lo hi body s s' H H0 (fun i s s1 _ HI => Hs i s s1 HI) E).
  - rewrite for_empty in E by lia. now injection E as <-.
Qed.
Lemma range_keeps A S (I : S -> Prop) (l : list A) (body : Z -> A -> S -> res S) s s' :
  I s -> (forall i x s s1, I s -> body i x s = Ok s1 -> I s1) -> range_ l body s = Ok s' -> I s'.
Proof.
  intros H0 Hs E. unfold range_ in E. revert E. apply for_keeps; auto.
  intros i t t1 Ht E. apply bind_ok in E as (x & _ & E). eapply Hs; eauto.
Qed.

Section Frame.
Context {N : Num}.
Variables PA PC : nat -> Prop.

Definition closed (m : Mem) : Prop :=
  (forall a p, PA a -> In (Some p) (arr_of m a) -> PC p) /\
  (forall a, (length (arrs m) <= a)%nat -> PA a) /\
  (forall p, (length (cells m) <= p)%nat -> PC p).
Definition kept (m m' : Mem) : Prop :=
  (forall a, ~ PA a -> arr_of m' a = arr_of m a) /\
  (forall p, ~ PC p -> nth_error (cells m') p = nth_error (cells m) p) /\
  (length (arrs m) <= length (arrs m'))%nat.
Definition good (m m' : Mem) : Prop := closed m' /\ kept m m'.

Lemma kept_trans m m1 m2 : kept m m1 -> kept m1 m2 -> kept m m2.
Proof.
  intros (A1 & A2 & A3) (B1 & B2 & B3). split; [|split; [|lia]].
  - intros a Ha. now rewrite B1, A1.
  - intros p Hp. now rewrite B2, A2.
Qed.
Lemma good_refl m : closed m -> good m m.
Proof. intros H. split; [exact H|]. repeat split; auto. Qed.

Lemma in_upd A (l : list A) k v x : In x (upd l k v) -> x = v \/ In x l.
Proof. revert k; induction l as [|y l IH]; intros [|k]; cbn; auto; [intuition|]. intros [->|H]; auto. destruct (IH _ H); auto. Qed.
Lemma nth_upd_or A (l : list A) k v j d : nth j (upd l k v) d = nth j l d \/ k = j /\ nth j (upd l k v) d = v.
Proof.
  destruct (Nat.eq_dec k j) as [->|Hne]; [|left; now apply nth_upd_ne].
  destruct (lt_dec j (length l)) as [H|H]; [right; split; auto; now apply nth_upd_eq|].
  left. rewrite !nth_overflow; auto; [lia|rewrite upd_length; lia].
Qed.

Lemma good_set_arr m0 m a l : good m0 m -> PA a -> (forall p, In (Some p) l -> PC p) -> good m0 (set_arr m a l).
Proof.
  intros ((C1 & C2 & C3) & K) Ha Hl. split; [split; [|split]|].
  - intros b p Hb Hin. unfold arr_of, set_arr in Hin. cbn in Hin.
    destruct (nth_upd_or (arrs m) a l b []) as [E|[_ E]]; rewrite E in Hin; [exact (C1 b p Hb Hin)|now apply Hl].
  - intros b. cbn. rewrite upd_length. apply C2.
  - exact C3.
  - eapply kept_trans; [exact K|]. split; [|split].
    + intros b Hb. apply arr_set_other. intros ->. now apply Hb.
    + reflexivity.
    + cbn. rewrite upd_length. lia.
Qed.
Lemma good_alloc m0 m c m1 q : good m0 m -> alloc m c = (m1, q) -> good m0 m1 /\ PC q.
Proof.
  intros ((C1 & C2 & C3) & K) E. injection E as <- <-. split; [|apply C3; lia]. split; [split; [|split]|].
  - exact C1.
  - exact C2.
  - intros p. cbn. rewrite app_length. cbn. intros Hp. apply C3. lia.
  - eapply kept_trans; [exact K|]. split; [reflexivity|split; [|cbn; lia]].
    intros p Hp. cbn. apply nth_error_app1. destruct (lt_dec p (length (cells m))); [assumption|]. destruct Hp. apply C3. lia.
Qed.
Lemma good_array m0 m l : good m0 m -> (forall p, In (Some p) l -> PC p) ->
  good m0 (mkMem (cells m) (arrs m ++ [l])) /\ PA (length (arrs m)).
Proof.
  intros ((C1 & C2 & C3) & K) Hl. split; [|apply C2; lia]. split; [split; [|split]|].
  - intros b p Hb. unfold arr_of. cbn. destruct (lt_dec b (length (arrs m))).
    + rewrite app_nth1 by assumption. intros Hin. exact (C1 b p Hb Hin).
    + rewrite app_nth2 by lia. destruct (b - length (arrs m))%nat as [|[|k]]; cbn; [apply Hl|intros []|intros []].
  - intros b. cbn. rewrite app_length. cbn. intros Hb. apply C2. lia.
  - exact C3.
  - eapply kept_trans; [exact K|]. split; [|split; [reflexivity|cbn; rewrite app_length; lia]].
    intros b Hb. unfold arr_of. cbn. apply app_nth1. destruct (lt_dec b (length (arrs m))); [assumption|]. destruct Hb. apply C2. lia.
Qed.
Lemma good_new m0 m n m1 a : good m0 m -> new_array m n = Ok (m1, a) -> good m0 m1 /\ PA a.
Proof.
  intros G E. unfold new_array in E. apply bind_ok in E as (nils & E1 & E). injection E as <- <-. apply good_array; auto.
  intros p Hin. unfold make in E1. destruct (n <? 0); [discriminate|]. injection E1 as <-.
  apply repeat_spec in Hin. discriminate.
Qed.
Lemma good_store m0 m p c : good m0 m -> PC p -> good m0 (store m p c).
Proof.
  intros ((C1 & C2 & C3) & K) Hp. split; [split; [|split]|].
  - exact C1.
  - exact C2.
  - intros q. cbn. rewrite upd_length. apply C3.
  - eapply kept_trans; [exact K|]. split; [reflexivity|split; [|cbn; lia]].
    intros q Hq. cbn. apply nth_error_upd_ne. intros ->. now apply Hq.
Qed.
Lemma mget_PC m e i p : closed m -> PA (mArr e) -> mget m e i = Ok (Some p) -> PC p.
Proof.
  intros (C1 & _) Ha E. unfold mget in E. destruct (i <? mLen e); [|discriminate].
  apply get_ok_iff in E as [_ E]. apply nth_error_In in E. eapply C1; eauto.
Qed.
Lemma good_mset m0 m e i p m' : good m0 m -> PA (mArr e) -> (forall q, p = Some q -> PC q) -> mset m e i p = Ok m' -> good m0 m'.
Proof.
  intros G Ha Hp E. unfold mset in E. destruct (i <? mLen e); [|discriminate]. apply bind_ok in E as (l & E & E2).
  injection E2 as <-. apply set_inv in E as [_ ->]. apply good_set_arr; auto.
  intros q Hin. apply in_upd in Hin as [E|Hin]; [now apply Hp|]. destruct G as ((C1 & _) & _). eapply C1; eauto.
Qed.
Lemma good_mset_got m0 m e i f j p m' : good m0 m -> PA (mArr e) -> PA (mArr f) -> mget m f j = Ok p ->
  mset m e i p = Ok m' -> good m0 m'.
Proof. intros G Ha Hf Eg Em. refine (good_mset G Ha _ Em). intros q ->. exact (mget_PC (proj1 G) Hf Eg). Qed.

Lemma frame_RemoveOutsideRange m0 m e s t m' e' : good m0 m -> PA (mArr e) ->
  RemoveOutsideRange m e s t = Ok (m', e') -> good m0 m' /\ mArr e' = mArr e.
Proof.
  intros G Ha E. unfold RemoveOutsideRange in E. apply bind_ok in E as ([m1 t1] & E & E2). injection E2 as <- <-. split; [|reflexivity].
  change (good m0 (fst (m1, t1))). revert E. apply for_keeps with (I := fun st => good m0 (fst st)); [exact G|].
  intros i [m2 t2] s1 G2 E. cbn [fst] in G2. apply bind_ok in E as (p & E1 & E). apply bind_ok in E as (c & _ & E).
  destruct (in_range s t (cTime c)); [|injection E as <-; exact G2].
  apply bind_ok in E as (m3 & E3 & E). injection E as <-. cbn [fst]. exact (good_mset_got G2 Ha Ha E1 E3).
Qed.
Lemma frame_RemoveDuplicates m0 m e m' e' : good m0 m -> PA (mArr e) ->
  RemoveDuplicates m e = Ok (m', e') -> good m0 m' /\ mArr e' = mArr e.
Proof.
  intros G Ha E. unfold RemoveDuplicates in E. apply bind_ok in E as ([[m1 t1] k1] & E & E2). injection E2 as <- <-. split; [|reflexivity].
  change (good m0 (fst (fst (m1, t1, k1)))). revert E. apply for_keeps with (I := fun st => good m0 (fst (fst st))); [exact G|].
  intros i [[m2 t2] k2] s1 G2 E. cbn [fst] in G2. apply bind_ok in E as (p & E1 & E). apply bind_ok in E as (c & _ & E). cbv zeta in E.
  destruct (negb (existsb (Z.eqb (cTime c)) k2)); [|injection E as <-; exact G2].
  apply bind_ok in E as (m3 & E3 & E). injection E as <-. cbn [fst]. exact (good_mset_got G2 Ha Ha E1 E3).
Qed.
Lemma frame_Clear m0 m e m' e' : good m0 m -> PA (mArr e) -> Clear m e = Ok (m', e') -> good m0 m' /\ mArr e' = mArr e.
Proof.
  intros G Ha E. unfold Clear in E. apply bind_ok in E as (m1 & E & E2). injection E2 as <- <-. split; [|reflexivity].
  revert E. apply for_keeps with (I := good m0); [exact G|]. intros i m2 m3 G2 E. refine (good_mset G2 Ha _ E). discriminate.
Qed.
Lemma frame_Copy m0 m e s t m' e' : good m0 m -> RemoveOutsideRangeCopy m e s t = Ok (m', e') -> good m0 m' /\ PA (mArr e').
Proof.
  intros G E. unfold RemoveOutsideRangeCopy in E. apply bind_ok in E as (nils & E1 & E). cbv zeta in E.
  apply bind_ok in E as (m1 & E & E2).
  assert (E0 : new_array m (mLen e) = Ok (mkMem (cells m) (arrs m ++ [nils]), length (arrs m))).
  { unfold new_array. rewrite E1. reflexivity. }
  destruct (good_new G E0) as [G1 Hn].
  assert (Gm : good m0 m1).
  { revert E. apply for_keeps with (I := good m0); [exact G1|]. intros i m2 m3 G2 E.
    apply bind_ok in E as (p & E3 & E). apply bind_ok in E as (c & E4 & E).
    destruct (@good_alloc m0 m2 c _ _ G2 eq_refl) as [G3 Hq]. refine (good_mset G3 _ _ E); [exact Hn|]. now intros q [= <-]. }
  refine (let (A, B) := frame_RemoveOutsideRange Gm _ E2 in conj A _); [exact Hn|]. rewrite B. exact Hn.
Qed.
Lemma frame_HeikinAshi m0 m e m' e' : good m0 m -> mToHeikinAshi m e = Ok (m', e') -> good m0 m' /\ PA (mArr e').
Proof.
  intros G E. unfold mToHeikinAshi in E. apply bind_ok in E as ([m1 a] & E1 & E). cbv zeta in E.
  apply bind_ok in E as (m2 & E & E2). injection E2 as <- <-. destruct (good_new G E1) as [G1 Hn]. split; [|exact Hn].
  revert E. apply for_keeps with (I := good m0); [exact G1|]. intros i m3 m4 G2 E.
  apply bind_ok in E as (c & _ & E). apply bind_ok in E as (o & _ & E). unfold alloc in E.
  destruct (@good_alloc m0 m3 (ha_candle o c) _ _ G2 eq_refl) as [G3 Hq]. refine (good_mset G3 _ _ E); [exact Hn|]. now intros q [= <-].
Qed.
Lemma frame_Convert m0 now m e i m' e' : good m0 m ->
  mConvertToNewInterval now m e i = Ok (inr (m', e')) -> good m0 m' /\ PA (mArr e').
Proof.
  intros G E. unfold mConvertToNewInterval in E.
  destruct (mInterval e <=? 0); [discriminate|]. destruct (i <=? 0); [discriminate|]. destruct (i <=? mInterval e); [discriminate|].
  destruct (negb _); [discriminate|]. apply bind_ok in E as (fi & _ & E). apply bind_ok in E as (la & _ & E). cbv zeta in E.
  destruct (negb _); [discriminate|]. apply bind_ok in E as ([m1 a] & E1 & E). cbn [mLen] in E.
  destruct (_ =? 0); [discriminate|]. apply bind_ok in E as ([er|h] & _ & E); [discriminate|].
  destruct (good_new G E1) as [G1 Hn].
  apply bind_ok in E as (m2 & E2 & E). apply bind_ok in E as (m3 & E3 & E). injection E as <- <-. split; [|exact Hn].
  assert (G2 : good m0 m2).
  { unfold massign_times in E2. apply bind_ok in E2 as ([t m4] & E2 & E4). injection E4 as <-.
    change (good m0 (snd (t, m4))). revert E2. apply range_keeps with (I := fun st => good m0 (snd st)); [exact G1|].
    intros _ rg [t1 m5] st G2. apply range_keeps with (I := fun st => good m0 (snd st)); [exact G2|].
    intros _ d [t2 m6] st2 G3 E. cbn [snd] in G3. destruct (t2 >=? _); [injection E as <-; exact G3|]. unfold alloc in E.
    apply bind_ok in E as (m7 & E & E7). injection E7 as <-.
    destruct (@good_alloc m0 m6 (blank (toUnix (itTime (idStart d)))) _ _ G3 eq_refl) as [G4 Hq].
    refine (good_mset G4 _ _ E); [exact Hn|]. now intros q [= <-]. }
  unfold mmerge_loop in E3. apply bind_ok in E3 as ([t m4] & E3 & E4). injection E4 as <-.
  change (good m0 (snd (t, m4))). revert E3. apply for_keeps with (I := fun st => good m0 (snd st)); [exact G2|].
  intros x [[tg|] m5] st G3 E; [|injection E as <-; exact G3]. cbn [snd] in G3.
  apply bind_ok in E as (old & _ & E). apply bind_ok in E as ([q|] & E5 & E); apply bind_ok in E as (cur & _ & E); [|discriminate].
  cbv zeta in E. apply bind_ok in E as (tg2 & _ & E). injection E as <-. cbn [snd]. apply good_store; [exact G3|].
  refine (mget_PC (proj1 G3) _ E5). exact Hn.
Qed.

Lemma in_upd_list (P : list MItem) k e e' f : nth_error P k = Some e -> (PA (mArr e) -> PA (mArr e')) ->
  (forall g, In g P -> PA (mArr g)) -> In f (upd P k e') -> PA (mArr f).
Proof.
  intros Hk He HP Hin. apply in_upd in Hin as [->|Hin]; [|now apply HP]. apply He, HP. eapply nth_error_In; eauto.
Qed.
Lemma frame_step m P m' P' : closed m -> (forall f, In f P -> PA (mArr f)) -> step m P m' P' ->
  good m m' /\ (forall f, In f P' -> PA (mArr f)).
Proof.
  intros C HP St. pose proof (good_refl C) as G.
  assert (HPk : forall k e, nth_error P k = Some e -> PA (mArr e)) by (intros k e Hk; apply HP; eapply nth_error_In; eauto).
  assert (HPa : forall e', PA (mArr e') -> forall f, In f (P ++ [e']) -> PA (mArr f)).
  { intros e' He f Hin. apply in_app_or in Hin as [Hin|[<-|[]]]; auto. }
  destruct St as [k e m' e' Hk E|k e s t m' e' Hk E|k e m' e' Hk E|k e d m' Hk E|k e s t m' e' Hk E|k e m' e' Hk E|k e now i m' e' Hk E
    |k e i p c Hk E|k e i c m' Hk E|k e i m' Hk E|k e i k2 f j p m' Hk Hk2 E1 E2|k e c x Hk|k e n Hk Hn|k e ex iv sy co Hk];
    pose proof (HPk _ _ Hk) as Ha.
  - destruct (frame_RemoveDuplicates G Ha E) as [A B]. split; [exact A|]. intros f. apply (in_upd_list Hk); [now rewrite B|exact HP].
  - destruct (frame_RemoveOutsideRange G Ha E) as [A B]. split; [exact A|]. intros f. apply (in_upd_list Hk); [now rewrite B|exact HP].
  - destruct (frame_Clear G Ha E) as [A B]. split; [exact A|]. intros f. apply (in_upd_list Hk); [now rewrite B|exact HP].
  - destruct E as (old & so & Pm & _ & Hl & Hf & _ & ->). split; [|exact HP]. apply good_set_arr; auto.
    intros p Hin. destruct C as (C1 & _). apply (C1 (mArr e) p Ha). apply in_app_or in Hin as [Hin|Hin].
    + rewrite <- (firstn_skipn (length old) (arr_of m (mArr e))). apply in_or_app. left. rewrite Hf.
      eapply Permutation_in; [apply Permutation_map; symmetry; exact Pm|exact Hin].
    + rewrite <- (firstn_skipn (length old) (arr_of m (mArr e))). apply in_or_app. now right.
  - destruct (frame_Copy G E) as [A B]. exact (conj A (HPa _ B)).
  - destruct (frame_HeikinAshi G E) as [A B]. exact (conj A (HPa _ B)).
  - destruct (frame_Convert G E) as [A B]. exact (conj A (HPa _ B)).
  - split; [|exact HP]. apply good_store; [exact G|]. exact (mget_PC C Ha E).
  - split; [|exact HP]. destruct (@good_alloc m m c _ _ G eq_refl) as [G1 Hq]. refine (good_mset G1 Ha _ E). now intros q [= <-].
  - split; [|exact HP]. refine (good_mset G Ha _ E). discriminate.
  - split; [|exact HP]. exact (good_mset_got G Ha (HPk _ _ Hk2) E1 E2).
  - destruct (@good_alloc m m c _ _ G eq_refl) as [G1 Hq].
    set (ma := fst (alloc m c)) in *. set (q := snd (alloc m c)) in *. change (good m ma) in G1. change (PC q) in Hq.
    unfold mappend. set (n := Z.to_nat (mLen e)). destruct (n <? length (arr_of ma (mArr e)))%nat; cbn [fst snd].
    + split; [|intros f; apply (in_upd_list Hk); auto]. apply good_set_arr; auto.
      intros p Hin. apply in_upd in Hin as [[= ->]|Hin]; [exact Hq|]. destruct G1 as ((C1 & _) & _). eapply C1; eauto.
    + destruct (@good_array m ma (firstn n (arr_of ma (mArr e)) ++ Some q :: repeat None x) G1) as [G2 Hn].
      * intros p Hin. apply in_app_or in Hin as [Hin|[[= ->]|Hin]]; [|exact Hq|apply repeat_spec in Hin; discriminate].
        destruct G1 as ((C1 & _) & _). apply (C1 (mArr e)); [exact Ha|].
        rewrite <- (firstn_skipn n (arr_of ma (mArr e))). apply in_or_app. now left.
      * split; [exact G2|]. intros f. apply (in_upd_list Hk); [intros _; exact Hn|exact HP].
  - split; [exact G|]. intros f. apply (in_upd_list Hk); auto.
  - split; [exact G|]. apply HPa. exact Ha.
Qed.
Lemma frame_steps m P m' P' : steps m P m' P' -> closed m -> (forall f, In f P -> PA (mArr f)) -> good m m'.
Proof.
  induction 1 as [m P|m P m1 P1 m2 P2 S1 S2 IH]; intros C HP; [now apply good_refl|].
  destruct (frame_step C HP S1) as [[C1 K1] HP1]. destruct (IH C1 HP1) as [C2 K2]. split; [exact C2|]. eapply kept_trans; eauto.
Qed.
End Frame.

(** ** Memory in which one item is under construction *)
Section Build.
Context {N : Num}.
Variable m0 : Mem.
Notation base := (length (cells m0)).
Definition ptrs (n t : nat) : list (option nat) := map (fun j => Some (base + j)%nat) (seq 0 t) ++ repeat None (n - t).
Definition St (n : nat) (cs : list Candle) : Mem := mkMem (cells m0 ++ cs) (arrs m0 ++ [ptrs n (length cs)]).
Definition cands (n : nat) (cs : list Candle) : list (option Candle) := map Some cs ++ repeat None (n - length cs).

Lemma ptrs_length n t : (t <= n)%nat -> length (ptrs n t) = n.
Proof. intros H. unfold ptrs. rewrite app_length, map_length, seq_length, repeat_length. lia. Qed.
Lemma ptrs_nth n t i : (t <= n)%nat -> nth_error (ptrs n t) i =
  if (i <? t)%nat then Some (Some (base + i)%nat) else if (i <? n)%nat then Some None else None.
Proof.
  intros H. unfold ptrs. destruct (Nat.ltb_spec i t) as [Hi|Hi].
  - rewrite nth_error_app1 by (rewrite map_length, seq_length; lia).
    rewrite nth_error_map. rewrite nth_error_nth' with (d := 0%nat) by (rewrite seq_length; lia). cbn. now rewrite seq_nth.
  - rewrite nth_error_app2 by (rewrite map_length, seq_length; lia). rewrite map_length, seq_length.
    destruct (Nat.ltb_spec i n).
    + apply nth_error_repeat. lia.
    + apply nth_error_None. rewrite repeat_length. lia.
Qed.
Lemma cands_nth n cs i : (length cs <= n)%nat -> nth_error (cands n cs) i =
  if (i <? length cs)%nat then Some (nth_error cs i) else if (i <? n)%nat then Some None else None.
Proof.
  intros H. unfold cands. destruct (Nat.ltb_spec i (length cs)) as [Hi|Hi].
  - rewrite nth_error_app1 by (rewrite map_length; lia). rewrite nth_error_map.
    destruct (nth_error cs i) eqn:E; [reflexivity|]. apply nth_error_None in E. lia.
  - rewrite nth_error_app2 by (rewrite map_length; lia). rewrite map_length.
    destruct (Nat.ltb_spec i n).
    + apply nth_error_repeat. lia.
    + apply nth_error_None. rewrite repeat_length. lia.
Qed.
Lemma cands_length n cs : (length cs <= n)%nat -> length (cands n cs) = n.
Proof. intros H. unfold cands. rewrite app_length, map_length, repeat_length. lia. Qed.

Lemma St_arr n cs : arr_of (St n cs) (length (arrs m0)) = ptrs n (length cs).
Proof. unfold arr_of, St. cbn. now rewrite app_nth2, Nat.sub_diag by lia. Qed.
Lemma new_St n m a : new_array m0 n = Ok (m, a) -> 0 <= n /\ m = St (Z.to_nat n) [] /\ a = length (arrs m0).
Proof.
  unfold new_array, make. destruct (Z.ltb_spec n 0); [discriminate|]. cbn. intros [= <- <-]. split; [lia|]. split; [|reflexivity].
  unfold St, ptrs. cbn. now rewrite app_nil_r, Nat.sub_0_r.
Qed.
Lemma new_St_ok n : 0 <= n -> new_array m0 n = Ok (St (Z.to_nat n) [], length (arrs m0)).
Proof.
  intros H. unfold new_array. rewrite make_ok by exact H. cbn. unfold St, ptrs. cbn. now rewrite app_nil_r, Nat.sub_0_r.
Qed.

Variables (e : MItem) (l : list (nat * Candle)).
Hypothesis Hs : shows m0 e l.

Lemma St_old n cs i : candle_at (St n cs) e i = get (map snd l) i.
Proof.
  destruct Hs as (Ha & Hl & _). unfold candle_at, mget. rewrite Hl.
  assert (El : len (map snd l) = len l) by (unfold len; now rewrite map_length).
  destruct (Z.ltb_spec i (len l)) as [H|H]; [|cbn; symmetry; apply get_out; lia].
  unfold arr_of. cbn [arrs St]. rewrite app_nth1 by exact Ha. change (nth (mArr e) (arrs m0) []) with (arr_of m0 (mArr e)).
  destruct (Z.ltb_spec i 0) as [H0|H0]; [rewrite !get_out by lia; reflexivity|].
  destruct (nth_error l (Z.to_nat i)) as [[p c]|] eqn:E; [|apply nth_error_None in E; unfold len in *; lia].
  destruct (show_nth Hs _ E) as [E1 E2].
  assert (G1 : get (arr_of m0 (mArr e)) i = Ok (Some p)) by (apply get_ok_iff; auto).
  rewrite G1. cbn [bind load]. cbn [cells St].
  transitivity (Ok c).
  - apply get_ok_iff. split; [lia|]. rewrite Nat2Z.id. rewrite nth_error_app1; [exact E2|]. apply nth_error_Some. congruence.
  - symmetry. apply get_ok_iff. split; [lia|]. exact (map_nth_error snd _ _ E).
Qed.

Variables (n : nat) (r : MItem).
Hypothesis Hr : mArr r = length (arrs m0) /\ mLen r = Z.of_nat n.

Lemma St_push cs c : (length cs < n)%nat ->
  mset (mkMem (cells (St n cs) ++ [c]) (arrs (St n cs))) r (len cs) (Some (length (cells (St n cs)))) = Ok (St n (cs ++ [c])).
Proof.
  intros H. destruct Hr as [R1 R2]. unfold mset. rewrite R2. replace (len cs <? Z.of_nat n) with true by (symmetry; apply Z.ltb_lt; unfold len; lia).
  rewrite R1. change (arr_of (mkMem _ (arrs (St n cs))) (length (arrs m0))) with (arr_of (St n cs) (length (arrs m0))). rewrite St_arr.
  rewrite set_ok by (unfold len; rewrite ptrs_length; lia). cbn [bind]. f_equal. unfold set_arr, St. cbn [cells arrs].
  rewrite <- app_assoc. f_equal. rewrite upd_app_r by lia. rewrite Nat.sub_diag. cbn [upd]. do 2 f_equal.
  unfold ptrs, len. rewrite Nat2Z.id, (app_length cs [c]). cbn [length]. rewrite Nat.add_1_r, seq_S, map_app. cbn [map Nat.add].
  rewrite upd_app_r by (rewrite map_length, seq_length; lia). rewrite map_length, seq_length, Nat.sub_diag.
  replace (n - length cs)%nat with (S (n - S (length cs))) by lia. cbn [repeat upd]. rewrite <- app_assoc. cbn [app].
  rewrite app_length. reflexivity.
Qed.
(** reading candles[i] *)
Lemma St_read cs i : (length cs <= n)%nat ->
  mget (St n cs) r i = (o <- get (cands n cs) i ;; Ok (match o with Some _ => Some (base + Z.to_nat i)%nat | None => None end)).
Proof.
  intros H. destruct Hr as [R1 R2]. unfold mget. rewrite R1, R2, St_arr.
  destruct (Z.ltb_spec i (Z.of_nat n)); [|rewrite get_out; [reflexivity|unfold len; rewrite cands_length; lia]].
  destruct (Z.ltb_spec i 0); [rewrite !get_out by lia; reflexivity|].
  unfold get. replace (i <? 0) with false by (symmetry; apply Z.ltb_ge; lia). rewrite ptrs_nth, cands_nth by exact H.
  destruct (Nat.ltb_spec (Z.to_nat i) (length cs)).
  - destruct (nth_error cs (Z.to_nat i)) eqn:E; [reflexivity|]. apply nth_error_None in E. lia.
  - destruct (Nat.ltb_spec (Z.to_nat i) n); [reflexivity|lia].
Qed.
Lemma St_load cs i c : nth_error cs i = Some c -> load (St n cs) (Some (base + i)%nat) = Ok c.
Proof.
  intros H. unfold load. cbn [cells St]. apply get_ok_iff. split; [lia|]. rewrite Nat2Z.id, nth_error_app2 by lia.
  now replace (base + i - base)%nat with i by lia.
Qed.
Lemma St_store cs i c : store (St n cs) (base + i)%nat c = St n (upd cs i c).
Proof.
  unfold store, St. cbn [cells arrs]. rewrite upd_app_r by lia. replace (base + i - base)%nat with i by lia. now rewrite upd_length.
Qed.
Lemma St_candle cs i : (length cs <= n)%nat -> candle_at (St n cs) r i = (p <- get (cands n cs) i ;; deref p).
Proof.
  intros H. unfold candle_at. rewrite St_read by exact H. destruct (get (cands n cs) i) as [[c|]|] eqn:E; cbn [bind]; [|reflexivity..].
  apply get_ok_iff in E as [Hi E]. rewrite cands_nth in E by exact H. destruct (Nat.ltb_spec (Z.to_nat i) (length cs)).
  - injection E as E. now apply St_load.
  - destruct (_ <? _)%nat; discriminate.
Qed.
Lemma St_sees cs : (length cs <= n)%nat -> sees (St n cs) r (cands n cs).
Proof.
  intros H. destruct Hr as [R1 R2]. unfold sees. rewrite R1, R2, St_arr, cands_length, ptrs_length by exact H.
  split; [cbn; rewrite app_length; cbn; lia|]. split; [unfold len; now rewrite cands_length by exact H|]. split; [lia|].
  intros i o. rewrite cands_nth, ptrs_nth by exact H. destruct (Nat.ltb_spec i (length cs)).
  - destruct (nth_error cs i) as [c|] eqn:E; [|apply nth_error_None in E; lia]. intros [= <-]. cbn.
    rewrite nth_error_app2 by lia. now replace (base + i - base)%nat with i by lia.
  - destruct (_ <? _)%nat; [|discriminate]. now intros [= <-].
Qed.
Lemma St_shows cs : length cs = n -> shows (St n cs) r (combine (seq base n) cs).
Proof.
  intros H. destruct Hr as [R1 R2]. unfold shows. rewrite R1, R2, St_arr. unfold len. rewrite combine_length, seq_length, H, Nat.min_id.
  split; [cbn; rewrite app_length; cbn; lia|]. split; [reflexivity|]. split.
  - unfold ptrs. rewrite Nat.sub_diag. cbn [repeat]. rewrite app_nil_r, firstn_all2 by (rewrite map_length, seq_length; lia).
    assert (E : map fst (combine (seq base n) cs) = seq base n).
    { rewrite <- H. clear. generalize base as b. induction cs as [|x cs IH]; intros b; cbn; [reflexivity|]. now rewrite IH. }
    rewrite <- (map_map fst (fun p => Some p)), E. rewrite <- (map_map (fun k => (base + k)%nat) Some). f_equal.
    clear. generalize base as b. intros b. induction n as [|k IH]; [reflexivity|]. now rewrite !seq_S, map_app, IH.
  - rewrite Forall_forall. intros [q c] Hin. cbn [fst snd]. apply In_nth_error in Hin as (k & Hk).
    clear R1 R2.
    assert (Hk2 : nth_error cs k = Some c /\ q = (base + k)%nat).
    { clear - Hk. revert k Hk. generalize base as b. revert n. induction cs as [|x cs IH]; intros [|n] b [|k]; cbn; try discriminate.
      - intros [= <- <-]. split; [reflexivity|lia].
      - intros Hk. destruct (IH n (S b) k Hk). split; [assumption|lia]. }
    destruct Hk2 as [E ->]. cbn [cells St]. rewrite nth_error_app2 by lia. now replace (base + k - base)%nat with k by lia.
Qed.
End Build.

Section Agree.
Context {N : Num}.
Variables (m : Mem) (e : MItem) (l : list (nat * Candle)).
Hypothesis Hs : shows m e l.
Notation cs0 := (map snd l).

Lemma HeikinAshi_mem : exists m' r l', mToHeikinAshi m e = Ok (m', r) /\ shows m' r l' /\
  ToHeikinAshi (item_of e cs0) = Ok (item_of r (map snd l')).
Proof.
  set (H := tab (length cs0) (fun k => ha_candle (ha_open cs0 k) (nth k cs0 (blank 0)))).
  assert (Hl : mLen e = len l) by apply Hs. assert (El : length cs0 = length l) by apply map_length.
  assert (LH : length H = length l) by (unfold H; now rewrite tab_length).
  unfold mToHeikinAshi. rewrite Hl, new_St_ok by apply len_nonneg. cbn [bind]. cbv zeta. replace (Z.to_nat (len l)) with (length l) by (unfold len; lia).
  set (r := mkMItem _ _ _ _ _ _).
  assert (Hr : mArr r = length (arrs m) /\ mLen r = Z.of_nat (length l)) by (split; reflexivity).
  rewrite (@for_nat0 _ (fun i => St m (length l) (firstn i H)) _ l).
  - cbn [bind]. rewrite <- LH, firstn_all. rewrite LH.
    do 3 eexists. split; [reflexivity|]. split; [apply (St_shows Hr LH)|].
    rewrite HeikinAshi_spec. unfold item_of, r. cbn [mExchange mInterval mSymbol mCode iExchange iInterval iCandles]. f_equal. f_equal.
    fold H. clear - LH. rewrite <- LH. clear. generalize (length (cells m)). generalize H. clear. intros H.
    induction H as [|x H IH]; intros b; cbn; [reflexivity|]. f_equal. apply IH.
  - reflexivity.
  - intros i Hi. rewrite (St_old Hs). rewrite get_nat with (d := blank 0) by lia. cbn [bind]. rewrite (St_old Hs).
    assert (E : (if Z.of_nat i >? 1 then prev <- get cs0 (Z.of_nat i - 1) ;; Ok ((cOpen prev +~ cClose prev) /~ ofZ 2)
                 else Ok ((cOpen (nth i cs0 (blank 0)) +~ cClose (nth i cs0 (blank 0))) /~ ofZ 2)) = Ok (ha_open cs0 i)).
    { unfold ha_open. rewrite Z.gtb_ltb. destruct (Z.ltb_spec 1 (Z.of_nat i)) as [H1|H1].
      - replace (Z.of_nat i - 1) with (Z.of_nat (i - 1)) by lia. rewrite get_nat with (d := blank 0) by lia. cbn [bind].
        destruct (Nat.ltb_spec 1 i); [reflexivity|lia].
      - destruct (Nat.ltb_spec 1 i); [lia|reflexivity]. }
    rewrite E. cbn [bind]. unfold alloc.
    assert (Lf : length (firstn i H) = i) by (rewrite firstn_length; lia).
    replace (Z.of_nat i) with (len (firstn i H)) by (unfold len; lia).
    rewrite (St_push Hr) by lia. f_equal. f_equal.
    rewrite (firstn_S_nth _ (blank 0)) by lia. f_equal. f_equal. unfold H. now rewrite tab_nth by lia.
Qed.

Variables (n : nat) (r : MItem).
Hypothesis Hr : mArr r = length (arrs m) /\ mLen r = Z.of_nat n.

Definition same (m1 : Mem) (os : list (option Candle)) : Prop :=
  exists cs, (length cs <= n)%nat /\ m1 = St m n cs /\ os = cands n cs.

Lemma cands_push cs c : (length cs < n)%nat -> set (cands n cs) (len cs) (Some c) = Ok (cands n (cs ++ [c])).
Proof.
  intros H. rewrite set_ok by (unfold len; rewrite cands_length; lia). f_equal. unfold len. rewrite Nat2Z.id. unfold cands.
  rewrite upd_app_r by (rewrite map_length; lia). rewrite map_length, Nat.sub_diag, map_app, app_length. cbn [length map].
  replace (n - length cs)%nat with (S (n - (length cs + 1))) by lia. cbn [repeat upd]. now rewrite <- app_assoc.
Qed.
Lemma assign_mem h : RR same (massign_times h (St m n []) r) (assign_times h (cands n [])).
Proof.
  set (T := fun (s1 : Z * Mem) (s2 : Z * list (option Candle)) => exists cs, (length cs <= n)%nat /\
              s1 = (len cs, St m n cs) /\ s2 = (len cs, cands n cs)).
  unfold massign_times, assign_times. apply rr_bind with (P := T).
  - apply rr_range with (P := eq).
    + induction (hRanges h); constructor; auto.
    + exists []. split; [cbn; lia|]. split; reflexivity.
    + intros _ rg ? s1 s2 <- HT. destruct HT as (cs & H & -> & ->). apply rr_range with (P := eq).
      * induction (irIntervals rg); constructor; auto.
      * now exists cs.
      * intros _ d ? t1 t2 <- (cs1 & H1 & -> & ->). destruct Hr as [_ R2]. rewrite R2. assert (Ec : len (cands n cs1) = Z.of_nat n) by (unfold len; now rewrite cands_length). rewrite Ec.
        rewrite Z.geb_leb. destruct (Z.leb_spec (Z.of_nat n) (len cs1)) as [Hn|Hn].
        -- cbn. now exists cs1.
        -- unfold alloc. rewrite (St_push Hr) by (unfold len in Hn; lia). rewrite cands_push by (unfold len in Hn; lia). cbn.
           exists (cs1 ++ [blank (toUnix (itTime (idStart d)))]). unfold len. rewrite app_length. cbn [length].
           split; [unfold len in Hn; lia|]. split; f_equal; lia.
  - intros s1 s2 (cs & H & -> & ->). cbn. now exists cs.
Qed.
Lemma cands_set cs i c : (i < length cs)%nat -> (length cs <= n)%nat ->
  set (cands n cs) (Z.of_nat i) (Some c) = Ok (cands n (upd cs i c)).
Proof.
  intros Hi H. rewrite set_ok by (unfold len; rewrite cands_length; lia). f_equal. rewrite Nat2Z.id. unfold cands.
  rewrite upd_app_l by (rewrite map_length; lia). rewrite upd_length. f_equal.
  clear. revert i. induction cs as [|x cs IH]; intros [|i]; cbn; auto. now rewrite IH.
Qed.
Lemma advance_mem cs k x t : (length cs <= n)%nat -> madvance (St m n cs) e r k x t = advance cs0 (cands n cs) k x t.
Proof.
  intros H. unfold madvance, advance. destruct Hr as [_ R2]. rewrite R2. assert (Hl : mLen e = len l) by apply Hs. rewrite Hl.
  assert (El : len cs0 = len l) by (unfold len; now rewrite map_length). rewrite El. assert (Ec : len (cands n cs) = Z.of_nat n) by (unfold len; now rewrite cands_length). rewrite Ec.
  destruct ((x <? len l - 1) && (t <? Z.of_nat n - 1)); [|reflexivity]. rewrite (St_old Hs). rewrite (St_candle Hr) by exact H.
  destruct (get cs0 (x + 1)); [|reflexivity]. cbn [bind]. destruct (get (cands n cs) (t + 1)) as [o|]; reflexivity.
Qed.
Lemma merge_mem m1 os k a b : same m1 os -> RR same (mmerge_loop m1 e r k a b) (merge_loop cs0 os k a b).
Proof.
  intros Hm. unfold mmerge_loop, merge_loop. apply rr_bind with (P := PR eq same).
  - apply rr_for; [reflexivity|unfold len; rewrite map_length; apply Hs|now split|].
    intros x [tg mm] [tg' oo] [E (cs & H & E1 & E2)]. cbn [fst snd] in *. subst tg' mm oo. destruct tg as [t|]; [|now (split; [|exists cs])].
    rewrite (St_old Hs). destruct (get cs0 x) as [old|]; [|exact I]. cbn [bind].
    rewrite (St_read Hr) by exact H. destruct (get (cands n cs) t) as [[cur|]|] eqn:Eg; cbn [bind deref]; [|exact I..].
    apply get_ok_iff in Eg as [Ht Eg]. rewrite cands_nth in Eg by exact H.
    destruct (Nat.ltb_spec (Z.to_nat t) (length cs)) as [Hi|Hi]; [|destruct (_ <? n)%nat; discriminate].
    injection Eg as Eg. rewrite (St_load Hr Eg). cbn [bind]. rewrite (St_store Hr).
    replace t with (Z.of_nat (Z.to_nat t)) at 3 by lia. rewrite cands_set by lia. cbn [bind].
    assert (Lu : (length (upd cs (Z.to_nat t) (absorb a b old cur)) <= n)%nat) by (rewrite upd_length; exact H).
    rewrite advance_mem by exact Lu. destruct (advance _ _ _ _ _) as [tg|]; [|exact I]. cbn.
    split; [reflexivity|]. eexists. split; [exact Lu|]. split; reflexivity.
  - intros [t1 mm] [t2 oo] [_ H]. exact H.
Qed.
End Agree.

Lemma Convert_mem N (m : @Mem N) e l now i : shows m e l ->
  RR (fun a b => match a, b with
      | inl x, inl y => x = y
      | inr (m', r), inr p => sees m' r (pCandles p) /\
          pExchange p = mExchange r /\ pInterval p = mInterval r /\ pSymbol p = mSymbol r /\ pCode p = mCode r
      | _, _ => False end)
    (mConvertToNewInterval now m e i) (ConvertToNewInterval now (Some (item_of e (map snd l))) i).
Proof.
  intros Hs. unfold mConvertToNewInterval, ConvertToNewInterval. cbn [item_of iInterval iCandles iExchange].
  destruct (mInterval e <=? 0); [reflexivity|]. destruct (i <=? 0); [reflexivity|].
  destruct (i <=? mInterval e); [reflexivity|]. destruct (negb _); [reflexivity|].
  assert (Hl : mLen e = len l) by apply Hs. assert (El : len (map snd l) = len l) by (unfold len; now rewrite map_length).
  rewrite Hl, El.
  assert (Old : forall j, candle_at m e j = get (map snd l) j).
  { intros j. assert (Ha : (mArr e < length (arrs m))%nat) by apply Hs. rewrite <- (St_old Hs 0 [] j). unfold candle_at, mget, arr_of, St. cbn [arrs cells].
    rewrite app_nth1 by exact Ha. rewrite app_nil_r. destruct (j <? mLen e); reflexivity. }
  rewrite !Old. destruct (get (map snd l) 0) as [fi|]; [|exact I]. cbn [bind]. destruct (get (map snd l) (len l - 1)) as [la|]; [|exact I]. cbn [bind]. cbv zeta.
  destruct (negb _); [reflexivity|]. set (q := Z.quot (len l) (Z.quot i (mInterval e))).
  destruct (Z_lt_le_dec q 0) as [Hq|Hq].
  { unfold new_array. rewrite !make_neg by exact Hq. exact I. }
  rewrite new_St_ok, make_ok by exact Hq. cbn [bind mLen].
  assert (Eq : len (repeat (@None Candle) (Z.to_nat q)) = q) by (unfold len; rewrite repeat_length; lia). rewrite Eq.
  destruct (q =? 0); [reflexivity|].
  apply rr_bind with (P := eq); [apply rr_refl|]. intros h ? <-. destruct h as [er|h]; [exact I|].
  set (r := mkMItem _ _ _ _ _ _).
  assert (Hr : mArr r = length (arrs m) /\ mLen r = Z.of_nat (Z.to_nat q)) by (split; [reflexivity|cbn; lia]).
  replace (repeat None (Z.to_nat q)) with (cands (Z.to_nat q) (@nil (@Candle N))) by (unfold cands; cbn; now rewrite Nat.sub_0_r).
  eapply rr_bind; [apply (assign_mem Hr)|]. intros m1 os Hm.
  eapply rr_bind; [apply (merge_mem Hs Hr _ _ _ Hm)|]. intros m2 os2 (cs & Hc & -> & ->). cbn [RR pCandles pExchange pInterval pSymbol pCode].
  split; [apply (St_sees Hr Hc)|]. repeat split; reflexivity.
Qed.

(** ** What an item that is not touched shows *)
Section Views.
Context {N : Num}.
Implicit Types (m : Mem) (e f x : MItem) (l : list (nat * Candle)).

Lemma shows_bound m x l pc : shows m x l -> In pc l -> (fst pc < length (cells m))%nat.
Proof. intros (_ & _ & _ & HF) Hin. rewrite Forall_forall in HF. apply nth_error_Some. rewrite (HF _ Hin). discriminate. Qed.
Lemma kept_shows (PA PC : nat -> Prop) m m' x l : kept PA PC m m' -> shows m x l -> ~ PA (mArr x) ->
  (forall pc, In pc l -> ~ PC (fst pc)) -> shows m' x l.
Proof.
  intros (K1 & K2 & K3) (H1 & H2 & H3 & H4) Ha Hc. split; [lia|]. split; [exact H2|]. split; [now rewrite K1|].
  rewrite Forall_forall in *. intros pc Hin. rewrite K2 by now apply Hc. now apply H4.
Qed.
Lemma apart_steps m P m' P' x l : shows m x l -> Forall (apart m x l) P -> steps m P m' P' -> shows m' x l.
Proof.
  intros Hx HP St. rewrite Forall_forall in HP.
  set (PA := fun a => (exists e, In e P /\ mArr e = a) \/ (length (arrs m) <= a)%nat).
  set (PC := fun p => (exists e, In e P /\ In (Some p) (arr_of m (mArr e))) \/ (length (cells m) <= p)%nat).
  assert (C : closed PA PC m).
  { split; [|split].
    - intros a p [(e & He & <-)|Ha] Hin; [left; eauto|]. unfold arr_of in Hin. rewrite nth_overflow in Hin by exact Ha. destruct Hin.
    - intros a Ha. now right.
    - intros p Hp. now right. }
  destruct (frame_steps St C) as [_ K]; [intros f Hf; left; eauto|].
  refine (kept_shows K Hx _ _).
  - intros [(e & He & E)|H]; [exact (proj1 (HP e He) E)|]. destruct Hx as (Hx & _). lia.
  - intros pc Hpc [(e & He & Hin)|H]; [exact (proj2 (HP e He) pc Hpc Hin)|]. pose proof (shows_bound Hx Hpc). lia.
Qed.

Lemma made_good m e m' r : made m e m' r ->
  good (fun a => (length (arrs m) <= a)%nat) (fun p => (length (cells m) <= p)%nat) m m' /\ (length (arrs m) <= mArr r)%nat.
Proof.
  intros H. set (PA := fun a => _). set (PC := fun p => _).
  assert (G : good PA PC m m).
  { apply good_refl. split; [|split]; [|auto|auto]. intros a p Ha Hin. unfold arr_of in Hin. rewrite nth_overflow in Hin by exact Ha. destruct Hin. }
  destruct H as [s t E|E|now i E]; [exact (frame_Copy G E)|exact (frame_HeikinAshi G E)|exact (frame_Convert G E)].
Qed.
Lemma made_old m e m' r x l : made m e m' r -> shows m x l -> shows m' x l /\ apart m' x l r.
Proof.
  intros H Hx. destruct (made_good H) as [[C K] Hr]. split.
  - refine (kept_shows K Hx _ _); [destruct Hx as (Hx & _); lia|]. intros pc Hpc. pose proof (shows_bound Hx Hpc). lia.
  - destruct C as (C1 & _). split; [destruct Hx as (Hx & _); lia|]. intros pc Hpc Hin.
    pose proof (shows_bound Hx Hpc). specialize (C1 _ _ Hr Hin). cbn in C1. lia.
Qed.
Lemma made_new m e m' r l f : solid m -> made m e m' r -> shows m' r l -> (mArr f < length (arrs m))%nat -> apart m' r l f.
Proof.
  intros Hs H Hl Hf. destruct (made_good H) as [[(C1 & _) (K1 & _)] Hr]. split; [lia|].
  intros pc Hpc Hin. rewrite K1 in Hin by lia. specialize (Hs _ _ Hin).
  assert (Hin2 : In (Some (fst pc)) (arr_of m' (mArr r))).
  { destruct Hl as (_ & _ & Hf2 & _). rewrite <- (firstn_skipn (length l) (arr_of m' (mArr r))). apply in_or_app. left. rewrite Hf2.
    apply (in_map (fun pc => Some (fst pc))). exact Hpc. }
  specialize (C1 _ _ Hr Hin2). cbn in C1. lia.
Qed.

Lemma read_candles m e l : shows m e l -> candles_of m e = Ok (map snd l).
Proof.
  intros Hs. unfold candles_of. assert (Hl : mLen e = len l) by apply Hs. rewrite Hl.
  rewrite (@for_nat0 _ (fun i => firstn i (map snd l)) _ l).
  - now rewrite <- (map_length snd l), firstn_all.
  - reflexivity.
  - intros i Hi. destruct (nth_error l i) as [[p c]|] eqn:E; [|apply nth_error_None in E; lia]. destruct (show_nth Hs _ E) as [E1 E2].
    unfold candle_at, mget. rewrite Hl. replace (Z.of_nat i <? len l) with true by (symmetry; apply Z.ltb_lt; unfold len; lia).
    assert (G : get (arr_of m (mArr e)) (Z.of_nat i) = Ok (Some p)) by (apply get_ok_iff; rewrite Nat2Z.id; split; [lia|exact E1]).
    rewrite G. cbn [bind load].
    assert (G2 : get (cells m) (Z.of_nat p) = Ok c) by (apply get_ok_iff; rewrite Nat2Z.id; split; [lia|exact E2]). rewrite G2. cbn [bind].
    rewrite (firstn_S_nth _ c) by (rewrite map_length; lia). do 3 f_equal. symmetry. apply nth_error_nth. exact (map_nth_error snd _ _ E).
Qed.

(** the array of an item after [pts] have been moved to its front *)
Definition fronted (arr pts : list (option nat)) : list (option nat) := pts ++ skipn (length pts) arr.
Lemma fronted_set arr pts p (l' : list (option nat)) : set (fronted arr pts) (len pts) p = Ok l' -> l' = fronted arr (pts ++ [p]).
Proof.
  intros E. apply set_inv in E as [H ->]. unfold fronted in *. unfold len in H. rewrite app_length, skipn_length in H.
  unfold len. rewrite Nat2Z.id, upd_app_r, Nat.sub_diag, app_length by lia. cbn [length].
  rewrite <- skipn_skipn_add.
  destruct (skipn (length pts) arr) as [|y t] eqn:Es; [apply (f_equal (@length _)) in Es; rewrite skipn_length in Es; cbn in Es; lia|].
  cbn. now rewrite <- app_assoc.
Qed.
Lemma mset_fronted m0 m e a pts p m' : mArr e = a -> (a < length (arrs m))%nat -> arr_of m a = fronted (arr_of m0 a) pts ->
  mset m e (len pts) p = Ok m' -> (a < length (arrs m'))%nat /\ arr_of m' a = fronted (arr_of m0 a) (pts ++ [p]).
Proof.
  intros <- Ha Hp E. unfold mset in E. destruct (_ <? _); [|discriminate]. apply bind_ok in E as (l' & E & E2). injection E2 as <-.
  rewrite Hp in E. apply fronted_set in E. split; [cbn; now rewrite upd_length|]. now rewrite arr_set_same.
Qed.
Lemma fronted_dups m e m' e' : (mArr e < length (arrs m))%nat -> RemoveDuplicates m e = Ok (m', e') ->
  exists pts, mLen e' = len pts /\ arr_of m' (mArr e) = fronted (arr_of m (mArr e)) pts.
Proof.
  intros Ha E. unfold RemoveDuplicates in E. apply bind_ok in E as ([[m1 t1] k1] & E & E2). injection E2 as <- <-. cbn [mLen with_len].
  change (exists pts, snd (fst (m1, t1, k1)) = len pts /\ arr_of (fst (fst (m1, t1, k1))) (mArr e) = fronted (arr_of m (mArr e)) pts).
  enough (H : exists pts, (mArr e < length (arrs (fst (fst (m1, t1, k1)))))%nat /\ snd (fst (m1, t1, k1)) = len pts /\
            arr_of (fst (fst (m1, t1, k1))) (mArr e) = fronted (arr_of m (mArr e)) pts) by (destruct H as (p & _ & H); eauto).
  revert E. apply for_keeps with (I := fun st => exists pts, (mArr e < length (arrs (fst (fst st))))%nat /\ snd (fst st) = len pts /\
            arr_of (fst (fst st)) (mArr e) = fronted (arr_of m (mArr e)) pts).
  - exists []. repeat split; auto.
  - intros i [[m2 t2] k2] s1 (pts & H1 & H2 & H3) E. cbn [fst snd] in *. subst t2.
    apply bind_ok in E as (p & _ & E). apply bind_ok in E as (c & _ & E). cbv zeta in E.
    destruct (negb _); [|injection E as <-; exists pts; auto].
    apply bind_ok in E as (m3 & E3 & E). injection E as <-. destruct (mset_fronted eq_refl H1 H3 E3) as [A B].
    exists (pts ++ [p]). cbn [fst snd]. rewrite len_app. repeat split; auto.
Qed.
Lemma fronted_range m e s t m' e' : (mArr e < length (arrs m))%nat -> RemoveOutsideRange m e s t = Ok (m', e') ->
  exists pts, mLen e' = len pts /\ arr_of m' (mArr e) = fronted (arr_of m (mArr e)) pts.
Proof.
  intros Ha E. unfold RemoveOutsideRange in E. apply bind_ok in E as ([m1 t1] & E & E2). injection E2 as <- <-. cbn [mLen with_len].
  enough (H : exists pts, (mArr e < length (arrs (fst (m1, t1))))%nat /\ snd (m1, t1) = len pts /\
            arr_of (fst (m1, t1)) (mArr e) = fronted (arr_of m (mArr e)) pts) by (destruct H as (p & _ & H); eauto).
  revert E. apply for_keeps with (I := fun st => exists pts, (mArr e < length (arrs (fst st)))%nat /\ snd st = len pts /\
            arr_of (fst st) (mArr e) = fronted (arr_of m (mArr e)) pts).
  - exists []. repeat split; auto.
  - intros i [m2 t2] s1 (pts & H1 & H2 & H3) E. cbn [fst snd] in *. subst t2.
    apply bind_ok in E as (p & _ & E). apply bind_ok in E as (c & _ & E).
    destruct (in_range _ _ _); [|injection E as <-; exists pts; auto].
    apply bind_ok in E as (m3 & E3 & E). injection E as <-. destruct (mset_fronted eq_refl H1 H3 E3) as [A B].
    exists (pts ++ [p]). cbn [fst snd]. rewrite len_app. repeat split; auto.
Qed.

(** the view of an item whose array got the pointers of [k] moved to its front *)
Lemma fronted_shows m m' f lf (k : list (nat * Candle)) : shows m f lf -> (length k <= length lf)%nat ->
  cells m' = cells m -> length (arrs m') = length (arrs m) ->
  arr_of m' (mArr f) = fronted (arr_of m (mArr f)) (map (fun pc => Some (fst pc)) k) ->
  Forall (fun pc => nth_error (cells m) (fst pc) = Some (snd pc)) k ->
  shows m' f (k ++ skipn (length k) lf).
Proof.
  intros (H1 & H2 & H3 & H4) Hk Ec El Ha HF. split; [lia|]. split; [|split].
  - rewrite H2. unfold len. rewrite app_length, skipn_length. lia.
  - rewrite Ha. unfold fronted. rewrite map_length, map_app, <- skipn_map, <- H3, app_length, skipn_length.
    rewrite firstn_app, map_length. rewrite firstn_all2 by (rewrite map_length; lia). f_equal.
    replace (length k + (length lf - length k) - length k)%nat with (length lf - length k)%nat by lia.
    rewrite firstn_skipn_comm. do 2 f_equal. lia.
  - rewrite Ec. apply Forall_app. split; [exact HF|]. rewrite Forall_forall in *. intros pc Hin. apply H4.
    rewrite <- (firstn_skipn (length k) lf). apply in_or_app. now right.
Qed.
Lemma front_view m e e' m' l f lf (k : list (nat * Candle)) pts : shows m e l -> shows m f lf -> shares_array e f ->
  shows m' e' k -> mArr e' = mArr e -> only_array (mArr e) m m' -> (length k <= length l)%nat ->
  mLen e' = len pts -> arr_of m' (mArr e) = fronted (arr_of m (mArr e)) pts -> shows m' f (k ++ skipn (length k) lf).
Proof.
  intros He Hf [Sa Sl] Hk Ea (O1 & O2 & _) Lk Hp Hpa.
  assert (Lf : (length l <= length lf)%nat).
  { destruct He as (_ & He & _). destruct Hf as (_ & Hf & _). rewrite He, Hf in Sl. unfold len in Sl. lia. }
  assert (Ep : pts = map (fun pc => Some (fst pc)) k).
  { destruct Hk as (_ & K2 & K3 & _). rewrite Ea, Hpa in K3. rewrite Hp in K2. unfold len in K2.
    unfold fronted in K3. rewrite <- K3. replace (length k) with (length pts) by lia. now rewrite firstn_app_exact. }
  apply (fronted_shows Hf); [lia|exact O1|exact O2|rewrite Sa, Hpa, Ep; reflexivity|].
  destruct Hk as (_ & _ & _ & HF). now rewrite O1 in HF.
Qed.

(** items that share an array have the same candles up to the shorter's end *)
Lemma share_prefix m e f l lf : shows m e l -> shows m f lf -> shares_array e f -> exists t, lf = l ++ t.
Proof.
  intros (E1 & E2 & E3 & E4) (F1 & F2 & F3 & F4) [Sa Sl]. rewrite E2, F2 in Sl. unfold len in Sl. rewrite Sa in F3.
  exists (skipn (length l) lf). rewrite <- (firstn_skipn (length l) lf) at 1. f_equal.
  assert (Hp : map fst (firstn (length l) lf) = map fst l).
  { assert (H : map (@Some nat) (map fst (firstn (length l) lf)) = map Some (map fst l)).
    { rewrite !map_map. rewrite <- E3. rewrite <- firstn_map. rewrite <- F3. rewrite firstn_firstn. f_equal. lia. }
    revert H. generalize (map fst (firstn (length l) lf)) as u, (map fst l) as v. clear. induction u as [|x u IH]; intros [|y v]; cbn; try discriminate; auto.
    intros [= -> H]. now rewrite (IH v H). }
  assert (G : Forall (fun pc => nth_error (cells m) (fst pc) = Some (snd pc)) (firstn (length l) lf)).
  { rewrite Forall_forall in *. intros pc Hin. apply F4. rewrite <- (firstn_skipn (length l) lf). apply in_or_app. now left. }
  revert Hp G E4. generalize (firstn (length l) lf) as u. clear. intros u. revert l. induction u as [|[p c] u IH]; intros [|[q d] l]; cbn; try discriminate; auto.
  intros [= -> H] G E. inversion G; inversion E; subst. cbn in *. f_equal; [congruence|]. apply IH; auto.
Qed.
End Views.
