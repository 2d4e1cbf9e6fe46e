(** * PropThreads: C107, indicator objects used by several goroutines. *)
From Coq Require Import PeanoNat Lia List.
From Verif Require Import Base Num B64 XReal Lits Sides Klines IndBase IndTrend IndChannel IndVolume IndOsc IndAll Threads SpecThreads ThreadsProofs PropInd1 PropRows.
Import ListNotations.
Set Implicit Arguments.
Unset Strict Implicit.

(** Goroutines that keep to objects of their own see, under every schedule, what
    each of them would see if it were the only one. *)
Theorem C107_independent (A : Type) (own : nat -> nat) (w w' : World A) (t : nat) :
  apart own w -> run w w' -> exists v, alone t w v /\ same_view own t w' v.
Proof. apply projected. Qed.
Print Assumptions C107_independent.

Lemma append_keeps (A : Type) own t k (r : list A) c : own k = t -> keeps own t c -> keeps own t (append_rows_of k r c).
Proof. intros Hk Hc. induction r as [|x r IH]; [exact Hc|]. cbn. split; [exact Hk|]. intros s Hs. split; [exact Hs|]. intros s' Hs'. auto. Qed.
Lemma write_keeps (A : Type) own t k (r : list A) c : own k = t -> keeps own t c -> forall i, keeps own t (write_rows_of k i r c).
Proof. intros Hk Hc. induction r as [|x r IH]; intros i; [exact Hc|]. cbn. split; [exact Hk|]. intros s Hs. auto. Qed.
(** GetData is such a program. *)
Theorem C107_GetData_keeps (N : Num) (own : nat -> nat) (k : nat) (c : cmd Row) : some_GetData k c -> keeps own (own k) c.
Proof.
  intros (I & p & kl & r & [Hi Hr|zero Hi Hr]); cbn; (split; [reflexivity|]); intros s Hs; destruct (slen s =? 0)%nat; try (cbn; tauto).
  - apply append_keeps; [reflexivity|]. cbn. tauto.
  - cbn. intros s' Hs'. split; [reflexivity|]. split; [exact Hs'|]. apply write_keeps; [reflexivity|]. cbn. tauto.
Qed.
Print Assumptions C107_GetData_keeps.

(** A goroutine with an object of its own gets the rows of a single-threaded
    GetData, whatever the others do with their objects and whatever the schedule. *)
Theorem C107_own_object (N : Num) (own : nat -> nat) (w w' : World Row) (t k : nat) (I : Indicator (N := N)) (p : Param I) (kl : list Candle) (r : list (row (Val I))) (s : Slice) :
  apart own w -> own k = t -> calls_GetData k p kl r (wRun w t) -> wObj w k = Nil ->
  run w w' -> wRun w' t = Return s ->
  rows_of I p kl = Ok r /\ rows_at (wMem w') s = rows_of_type r.
Proof.
  intros HA Hk HC Ho HR E. split; [now destruct HC|]. destruct (projected t HA HR) as (v & Hv & V).
  pose proof (proj1 (run_apart HA HR) t) as Hm. rewrite E in Hm. cbn in Hm.
  assert (Ev : wRun v t = Return s) by (destruct V as (_ & _ & V); congruence).
  assert (G : rows_at (wMem v) s = rows_of_type r).
  { remember (wRun w t) as c eqn:Ec. destruct HC as [Hi Hr|zero Hi Hr]; symmetry in Ec.
    - exact (@ends_get_append _ t k (rows_of_type r) w Ec Ho v s Hv Ev).
    - exact (@ends_get_make _ t k zero (rows_of_type r) w Ec Ho v s Hv Ev). }
  rewrite <- G. unfold rows_at. now rewrite (view_cells s V Hm).
Qed.
Print Assumptions C107_own_object.

(** Any number of goroutines may call GetData on objects that have their rows,
    also on the same one: nothing is written, and each gets the rows of the object. *)
Theorem C107_shared_once_filled (N : Num) (w w' : World Row) (obj : nat -> nat) :
  (forall t, some_GetData (obj t) (wRun w t) /\ slen (wObj w (obj t)) <> 0%nat) -> run w w' ->
  wMem w' = wMem w /\ wObj w' = wObj w /\ forall t s, wRun w' t = Return s -> s = wObj w (obj t).
Proof.
  intros H R.
  assert (G : wMem w' = wMem w /\ wObj w' = wObj w /\ forall t, wRun w' t = wRun w t \/ wRun w' t = Load (obj t) Return \/ wRun w' t = Return (wObj w (obj t))).
  { induction R as [w|t w w1 w2 R IH HA]; [auto|]. destruct (IH H) as (M & O & P). clear IH.
    assert (Q : exists f, wRun w1 t = Load (obj t) f /\ (f (wObj w (obj t)) = Load (obj t) Return \/ f (wObj w (obj t)) = Return (wObj w (obj t)))).
    { destruct (P t) as [E|[E|E]].
      - destruct (H t) as [(I & p & kl & r & HC) Hn]. rewrite E. destruct HC as [Hi Hr|zero Hi Hr]; (eexists; split; [reflexivity|]); cbv beta; rewrite (proj2 (Nat.eqb_neq _ _) Hn); now left.
      - exists Return. split; [exact E|]. now right.
      - exfalso. destruct HA; congruence. }
    destruct Q as (f & Ef & Hf). destruct HA as [k g E|k s c E|o a n x g E Hn|s x g spare E Hn|z n g E|o a n i x c E Hn|s i x g E Hn Hx]; rewrite Ef in E; try discriminate E.
    injection E as <- <-. cbn [wMem wObj wRun]. split; [exact M|]. split; [exact O|]. intros t'. destruct (Nat.eq_dec t' t) as [->|Hd].
    - rewrite setf_eq, O. tauto.
    - rewrite setf_ne by exact Hd. apply P. }
  destruct G as (M & O & P). split; [exact M|]. split; [exact O|]. intros t s E. destruct (P t) as [E'|[E'|E']]; rewrite E in E'; [|discriminate|congruence].
  destruct (H t) as [(I & p & kl & r & HC) _]. rewrite <- E' in HC. inversion HC.
Qed.
Print Assumptions C107_shared_once_filled.

(** ** Two goroutines call GetData on the same new object *)
(** The full property would be that each gets the rows.  For every type that appends
    there is a schedule under which the second one gets the first row only, *)
Theorem C107_first_row_only_refuted (N : Num) (I : Indicator (N := N)) (p : Param I) (kl : list Candle) (x : row (Val I)) (r : list (row (Val I))) (w : World Row) (k t t' : nat) :
  In I append_style -> rows_of I p kl = Ok (x :: r) -> t <> t' -> wObj w k = Nil ->
  wRun w t = appending_GetData k (x :: r) -> wRun w t' = appending_GetData k (x :: r) ->
  exists w' s, run w w' /\ wRun w' t' = Return s /\ rows_at (wMem w') s = rows_of_type [x].
Proof.
  intros _ _ Hd Ho E E'. pose proof (can_load _ _ E) as A1. cbv beta in A1. rewrite Ho in A1. cbn [slen Nat.eqb] in A1.
  set (w1 := mkWorld _ _ _) in A1. set (y := existT (fun I => row (Val I)) I x).
  pose (rest := fun s' => Store k s' (append_rows_of k (rows_of_type r) (Load k Return))).
  assert (A2 : act t w1 (mkWorld (wMem w1) (wObj w1) (setf (wRun w1) t (Append (wObj w1 k) y rest)))) by (apply can_load with (f := fun s => Append s y rest); apply setf_eq).
  set (w2 := mkWorld _ _ _) in A2.
  destruct (@can_append _ t w2 (wObj w1 k) y rest) as (m & s & A3 & L & Rs); [apply setf_eq|cbn; rewrite Ho; exact Logic.I|].
  set (w3 := mkWorld _ _ _) in A3. assert (A4 : act t w3 (mkWorld m (setf (wObj w3) k s) (setf (wRun w3) t (append_rows_of k (rows_of_type r) (Load k Return))))) by (apply (fun H => @act_store _ t w3 k s _ H); apply setf_eq).
  set (w4 := mkWorld _ _ _) in A4.
  assert (Rr : rows_at m s = [y]) by (rewrite Rs; cbn [w2 w1 wMem wObj]; rewrite Ho; reflexivity).
  assert (Hn : slen s <> 0%nat) by (intros Z0; unfold rows_at in Rr; rewrite Z0 in Rr; discriminate).
  destruct (@can_get_filled _ t' w4 k (append_rows_of k (rows_of_type (x :: r)))) as (w' & A5 & E5 & M5 & _).
  - cbn [w4 w3 w2 w1 wRun]. rewrite !setf_ne by auto. exact E'.
  - cbn [w4 wObj]. rewrite setf_eq. exact Hn.
  - exists w', s. split; [|split].
    + eapply run_trans; [|exact (alone_run A5)]. eapply run_step; [|exact A4]. eapply run_step; [|exact A3]. eapply run_step; [|exact A2]. eapply run_step; [|exact A1]. apply run_stop.
    + rewrite E5. cbn [w4 wObj]. now rewrite setf_eq.
    + rewrite M5. exact Rr.
Qed.
Print Assumptions C107_first_row_only_refuted.
(** and one after which the object has every row twice; *)
Theorem C107_rows_twice_refuted (N : Num) (I : Indicator (N := N)) (p : Param I) (kl : list Candle) (r : list (row (Val I))) (w : World Row) (k t t' : nat) :
  In I append_style -> rows_of I p kl = Ok r -> t <> t' -> wObj w k = Nil ->
  wRun w t = appending_GetData k r -> wRun w t' = appending_GetData k r ->
  exists w' s, run w w' /\ wRun w' t' = Return s /\ wObj w' k = s /\ rows_at (wMem w') s = rows_of_type (r ++ r).
Proof.
  intros _ _ Hd Ho E E'. pose proof (can_load _ _ E) as A1. cbv beta in A1. rewrite Ho in A1. cbn [slen Nat.eqb] in A1. set (w1 := mkWorld _ _ _) in A1.
  assert (E1 : wRun w1 t' = appending_GetData k r) by (cbn [w1 wRun]; rewrite setf_ne by auto; exact E').
  pose proof (can_load _ _ E1) as A2. cbv beta in A2. replace (wObj w1 k) with Nil in A2 by (symmetry; exact Ho). cbn [slen Nat.eqb] in A2. set (w2 := mkWorld _ _ _) in A2.
  destruct (@can_append_rows _ t k (Load k Return) (rows_of_type r) w2) as (w3 & A3 & E3 & L3 & R3).
  { cbn [w2 wRun]. rewrite setf_ne by exact Hd. apply setf_eq. }
  { cbn. rewrite Ho. exact Logic.I. }
  destruct (@can_append_rows _ t' k (Load k Return) (rows_of_type r) w3) as (w4 & A4 & E4 & L4 & R4).
  { rewrite (alone_others A3) by auto. apply setf_eq. }
  { exact L3. }
  destruct (can_return _ _ E4) as (w5 & A5 & E5 & M5 & O5).
  exists w5, (wObj w4 k). split; [|split; [exact E5|split; [now rewrite O5|]]].
  - eapply run_trans; [|exact (alone_run A5)]. eapply run_trans; [|exact (alone_run A4)]. eapply run_trans; [|exact (alone_run A3)]. eapply run_step; [|exact A2]. eapply run_step; [|exact A1]. apply run_stop.
  - rewrite M5, R4, R3. cbn [w2 w1 wMem wObj]. rewrite Ho. cbn. unfold rows_of_type. now rewrite map_app.
Qed.
Print Assumptions C107_rows_twice_refuted.
(** for every type that allocates there is one under which the second goroutine gets
    rows of zeros. *)
Theorem C107_zero_rows_refuted (N : Num) (I : Indicator (N := N)) (p : Param I) (kl : list Candle) (r : list (row (Val I))) (zero : Row) (w : World Row) (k t t' : nat) :
  In I make_style -> rows_of I p kl = Ok r -> r <> [] -> t <> t' -> wObj w k = Nil ->
  wRun w t = making_GetData zero k r -> wRun w t' = making_GetData zero k r ->
  exists w' s, run w w' /\ wRun w' t' = Return s /\ rows_at (wMem w') s = repeat zero (length r).
Proof.
  intros _ _ Hr Hd Ho E E'. pose proof (can_load _ _ E) as A1. cbv beta in A1. rewrite Ho in A1. cbn [slen Nat.eqb] in A1. set (w1 := mkWorld _ _ _) in A1.
  pose (rest := write_rows_of k 0 (rows_of_type r) (Load k Return)).
  assert (A2 : act t w1 (mkWorld (setf (wMem w1) t (wMem w1 t ++ [repeat zero (length (rows_of_type r))])) (wObj w1) (setf (wRun w1) t (Store k (Sl t (length (wMem w1 t)) (length (rows_of_type r))) rest)))).
  { apply act_make with (f := fun s => Store k s rest). apply setf_eq. }
  set (w2 := mkWorld _ _ _) in A2. set (s := Sl _ _ _) in w2.
  assert (A3 : act t w2 (mkWorld (wMem w2) (setf (wObj w2) k s) (setf (wRun w2) t rest))) by (apply (fun H => @act_store _ t w2 k s _ H); apply setf_eq).
  set (w3 := mkWorld _ _ _) in A3.
  destruct (@can_get_filled _ t' w3 k (make_rows_of zero k (rows_of_type r))) as (w' & A4 & E4 & M4 & _).
  - cbn [w3 w2 w1 wRun]. rewrite !setf_ne by auto. exact E'.
  - cbn [w3 wObj]. rewrite setf_eq. cbn. unfold rows_of_type. rewrite map_length. destruct r; [congruence|discriminate].
  - exists w', s. split; [|split].
    + eapply run_trans; [|exact (alone_run A4)]. eapply run_step; [|exact A3]. eapply run_step; [|exact A2]. eapply run_step; [|exact A1]. apply run_stop.
    + rewrite E4. cbn [w3 wObj]. now rewrite setf_eq.
    + rewrite M4. unfold rows_at, s. cbn [w3 w2 wMem slen cells]. rewrite setf_eq, nth_middle. unfold rows_of_type. rewrite map_length. apply firstn_all2. now rewrite repeat_length.
Qed.
Print Assumptions C107_zero_rows_refuted.

(** ** A case that meets the hypotheses *)
(** Two goroutines, each with a new object of its own, one of a type that appends and
    one of a type that allocates; each can finish. *)
Definition two (N : Num) (c0 c1 : cmd (Row (N := N))) : World Row :=
  mkWorld (fun _ => []) (fun _ => Nil) (fun t => match t with O => c0 | 1%nat => c1 | _ => Return Nil end).
Example C107_hyp : exists r0 r1 w (zero : Row (N := EX)),
  rows_of (N := EX) I_Ma 2%Z (flat [5; 6; 9]%Z) = Ok r0 /\ rows_of (N := EX) I_Ema 2%Z (flat [5; 6; 9]%Z) = Ok r1 /\
  length r0 = 3%nat /\ length r1 = 3%nat /\ w = two (appending_GetData 0 r0) (making_GetData zero 1 r1) /\
  apart (fun k => k) w /\ calls_GetData 0 (I := I_Ma) 2%Z (flat [5; 6; 9]%Z) r0 (wRun w 0) /\ calls_GetData 1 (I := I_Ema) 2%Z (flat [5; 6; 9]%Z) r1 (wRun w 1) /\
  wObj w 0 = Nil /\ wObj w 1 = Nil /\ exists w' s, run w w' /\ wRun w' 0%nat = Return s.
Proof.
  destruct C105_hyp as [(r1 & R1 & L1) (r0 & R0 & L0)]. assert (X : exists x, In x r0) by (destruct r0; [discriminate|eexists; now left]). destruct X as [x _].
  pose (zero := existT (fun I => row (Val I)) (I_Ma (N := EX)) x : Row (N := EX)).
  exists r0, r1, (two (appending_GetData 0 r0) (making_GetData zero 1 r1)), zero.
  assert (C0 : calls_GetData 0 (I := I_Ma) 2%Z (flat [5; 6; 9]%Z) r0 (appending_GetData 0 r0)) by (apply by_append; [now left|exact R0]).
  assert (C1 : calls_GetData 1 (I := I_Ema) 2%Z (flat [5; 6; 9]%Z) r1 (making_GetData zero 1 r1)) by (apply by_make; [right; now left|exact R1]).
  split; [exact R0|]. split; [exact R1|]. split; [exact L0|]. split; [exact L1|]. split; [reflexivity|]. split; [|split; [exact C0|split; [exact C1|split; [reflexivity|split; [reflexivity|]]]]].
  - split; [|intros k; exact Logic.I]. intros [|[|t]]; [| |exact Logic.I].
    + exact (C107_GetData_keeps (fun k => k) (k := 0) (ex_intro _ _ (ex_intro _ _ (ex_intro _ _ (ex_intro _ _ C0))))).
    + exact (C107_GetData_keeps (fun k => k) (k := 1) (ex_intro _ _ (ex_intro _ _ (ex_intro _ _ (ex_intro _ _ C1))))).
  - set (w := two _ _). assert (E : wRun w 0 = appending_GetData 0 r0) by reflexivity. pose proof (can_load _ _ E) as A1. cbv beta in A1. change (wObj w 0) with Nil in A1. cbn [slen Nat.eqb] in A1.
    set (w1 := mkWorld _ _ _) in A1. destruct (@can_append_rows _ 0 0 (Load 0 Return) (rows_of_type r0) w1) as (w2 & A2 & E2 & _ & _); [apply setf_eq|exact Logic.I|].
    destruct (can_return _ _ E2) as (w3 & A3 & E3 & _ & _). exists w3, (wObj w2 0). split; [|exact E3].
    eapply run_trans; [|exact (alone_run A3)]. eapply run_trans; [|exact (alone_run A2)]. eapply run_step; [apply run_stop|exact A1].
Qed.
