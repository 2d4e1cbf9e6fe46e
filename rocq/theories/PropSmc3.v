(** * PropSmc3: what an earlier run leaves behind after Clear (C69, continued). *)
From Coq Require Import ZArith List Bool Lia.
From Verif Require Import Base Num Ta Sides Klines IndBase SpecNum Lits Smc PropSmc.
Import ListNotations.
Open Scope Z_scope.

Lemma bind_ok A B (x : res A) (k : A -> res B) r : bind x k = Ok r -> exists a, x = Ok a /\ k a = Ok r.
Proof. destruct x; [|discriminate]. intros E; now exists a. Qed.
Ltac both A B := let x := fresh "x" in let E := fresh "E" in apply bind_ok in A as (x & E & A); rewrite E in B; cbn [bind] in B.
Section Sim.
Context `{N : Num}.
Implicit Types e : Smc (N := N).
(** the part of an object the rows depend on *)
Definition same_rows e1 e2 : Prop := sData e1 = sData e2 /\ sOs1 e1 = sOs1 e2 /\ sOs2 e1 = sOs2 e2.
Lemma brk_sim oh fires choch useMax fb fc i hs ls at_ pv data i1 l1 i2 l2 p1 d1 j1 m1 p2 d2 j2 m2 :
  brk (N := N) oh fires choch useMax fb fc i hs ls at_ pv (data, i1, l1) = Ok (p1, (d1, j1, m1)) ->
  brk (N := N) oh fires choch useMax fb fc i hs ls at_ pv (data, i2, l2) = Ok (p2, (d2, j2, m2)) -> p1 = p2 /\ d1 = d2.
Proof.
  unfold brk. destruct fires; [|intros A B; injection A; injection B; intros; subst; now split].
  intros A B. apply bind_ok in A as (x & Ex & A). rewrite Ex in B. cbn [bind] in B.
  apply bind_ok in A as ([? ?] & _ & A). apply bind_ok in B as ([? ?] & _ & B). injection A; injection B; intros; subst; now split.
Qed.
Lemma bar_sim p oh atr i v e1 e2 v1 r1 v2 r2 : same_rows e1 e2 ->
  smc_bar p oh atr i v e1 = Ok (v1, r1) -> smc_bar p oh atr i v e2 = Ok (v2, r2) -> v1 = v2 /\ same_rows r1 r2.
Proof.
  intros (D & O1 & O2) A B. unfold smc_bar in A, B. rewrite <- D, <- O1, <- O2 in B.
  do 6 both A B. apply bind_ok in A as ([[top btm] os1] & Esw1 & A); rewrite Esw1 in B; cbn [bind] in B.
  apply bind_ok in A as ([[itop ibtm] os2] & Esw2 & A); rewrite Esw2 in B; cbn [bind] in B.
  cbv zeta in A, B. destruct (trail fmax _ _ _ _ _) as [up upX]. destruct (trail fmin _ _ _ _ _) as [dn dnX].
  do 3 both A B.
  apply bind_ok in A as ([p1 [[d1 j1] m1]] & A1 & A). apply bind_ok in B as ([p1' [[d1' j1'] m1']] & B1 & B).
  destruct (@brk_sim _ _ _ _ _ _ _ _ _ _ _ _ _ _ _ _ _ _ _ _ _ _ _ _ A1 B1) as [<- <-]. clear A1 B1.
  both A B.
  apply bind_ok in A as ([p2 [[d2 j2] m2]] & A1 & A). apply bind_ok in B as ([p2' [[d2' j2'] m2']] & B1 & B).
  destruct (@brk_sim _ _ _ _ _ _ _ _ _ _ _ _ _ _ _ _ _ _ _ _ _ _ _ _ A1 B1) as [<- <-]. clear A1 B1.
  both A B.
  apply bind_ok in A as ([p3 [[d3 j3] m3]] & A1 & A). apply bind_ok in B as ([p3' [[d3' j3'] m3']] & B1 & B).
  destruct (@brk_sim _ _ _ _ _ _ _ _ _ _ _ _ _ _ _ _ _ _ _ _ _ _ _ _ A1 B1) as [<- <-]. clear A1 B1.
  both A B.
  apply bind_ok in A as ([p4 [[d4 j4] m4]] & A1 & A). apply bind_ok in B as ([p4' [[d4' j4'] m4']] & B1 & B).
  destruct (@brk_sim _ _ _ _ _ _ _ _ _ _ _ _ _ _ _ _ _ _ _ _ _ _ _ _ A1 B1) as [<- <-]. clear A1 B1.
  apply bind_ok in A as (? & _ & A). apply bind_ok in A as (? & _ & A). apply bind_ok in B as (? & _ & B). apply bind_ok in B as (? & _ & B).
  apply bind_ok in A as ([[[[eqT eqTX] eqB] eqBX] data] & Eeq & A). rewrite Eeq in B. cbn [bind] in B.
  do 4 both A B. injection A; injection B; intros; subst. repeat split.
Qed.
Lemma step_sim p oh atr i v e1 e2 v1 r1 v2 r2 : same_rows e1 e2 ->
  smc_step p oh atr i (v, e1) = Ok (v1, r1) -> smc_step p oh atr i (v, e2) = Ok (v2, r2) -> v1 = v2 /\ same_rows r1 r2.
Proof.
  intros S A B. unfold smc_step in A, B. do 4 both A B. cbv zeta in A, B. destruct (i <? SwingLenght p).
  - injection A; injection B; intros; subst; now split.
  - exact (@bar_sim _ _ _ _ _ _ _ _ _ _ _ S A B).
Qed.
End Sim.
Section Loop.
Context `{N : Num}.
Lemma loop_sim p oh atr n : forall lo v (e1 e2 : Smc (N := N)) v1 r1 v2 r2, same_rows e1 e2 ->
  loop n lo (smc_step p oh atr) (v, e1) = Ok (v1, r1) -> loop n lo (smc_step p oh atr) (v, e2) = Ok (v2, r2) -> v1 = v2 /\ same_rows r1 r2.
Proof.
  induction n as [|n IH]; intros lo v e1 e2 v1 r1 v2 r2 S A B; cbn [loop] in A, B.
  - injection A; injection B; intros; subst; now split.
  - apply bind_ok in A as ([va ea] & A1 & A). apply bind_ok in B as ([vb eb] & B1 & B).
    destruct (@step_sim N _ _ _ _ _ _ _ _ _ _ _ S A1 B1) as [<- S']. exact (IH _ _ _ _ _ _ _ _ S' A B).
Qed.
End Loop.

(** ** C69, continued: what survives Clear *)
(** two objects whose two swing directions agree draw the same rows from the same candles, whatever rows, order blocks and
    strong and weak levels the earlier runs left in them *)
Theorem C69_rows_need_swing_only (N : Num) (p : SmcP) (oh : OHLC (N := N)) (e1 e2 r1 r2 : Smc (N := N)) :
  sOs1 e1 = sOs1 e2 -> sOs2 e1 = sOs2 e2 -> smc_Calculation p oh e1 = Ok r1 -> smc_Calculation p oh e2 = Ok r2 -> sData r1 = sData r2.
Proof.
  intros O1 O2 A B. unfold smc_Calculation in A, B. both A B. both A B. cbv zeta in A, B.
  apply bind_ok in A as ([va ea] & A1 & A). apply bind_ok in B as ([vb eb] & B1 & B). injection A as <-. injection B as <-.
  unfold for_ in A1, B1. refine (proj1 (proj2 (@loop_sim N _ _ _ _ _ _ _ _ _ _ _ _ _ A1 B1))). repeat split; cbn; assumption.
Qed.
Print Assumptions C69_rows_need_swing_only.
(** so when a run ended on swing highs on both scales, as a new object begins, Clear and Calculation draw the same rows again *)
Theorem C69_recalculation_partial (N : Num) (p : SmcP) (oh : OHLC (N := N)) (e e' : Smc (N := N)) :
  smc_Calculation p oh smc_new = Ok e -> sOs1 e = 0 -> sOs2 e = 0 -> smc_Calculation p oh (smc_Clear e) = Ok e' -> sData e' = sData e.
Proof. intros A O1 O2 B. exact (@C69_rows_need_swing_only N p oh (smc_Clear e) smc_new e' e O1 O2 B A). Qed.
Print Assumptions C69_recalculation_partial.
(** and whatever the rows and order blocks of the earlier run were, after Clear they have no influence at all: the rows, the order blocks
    and the strong and weak levels of the next run are the same *)
Theorem C69_blocks_forgotten (N : Num) (p : SmcP) (oh : OHLC (N := N)) (e1 e2 : Smc (N := N)) :
  (sOs1 e1, sOs2 e1, sIdxBullish e1, sIdxBearish e1) = (sOs1 e2, sOs2 e2, sIdxBullish e2, sIdxBearish e2) ->
  (sStrongHigh e1, sWeakHigh e1, sStrongLow e1, sWeakLow e1) = (sStrongHigh e2, sWeakHigh e2, sStrongLow e2, sWeakLow e2) ->
  smc_Calculation p oh (smc_Clear e1) = smc_Calculation p oh (smc_Clear e2).
Proof. destruct e1, e2; cbn. intros A B. injection A; injection B; intros; subst. reflexivity. Qed.
Print Assumptions C69_blocks_forgotten.
Example C69_hyp_partial : rmap (fun s => (sOs1 (fst s), sOs2 (fst s), len (sData (snd s)),
    existsb (fun r => negb (HighBOSLong (rVal r) ==~ fzero)) (sData (fst s)))) (smc_twice (smc_params 5 3 1) 206) = Ok (0, 0, 206, true).
Proof. vm_compute. reflexivity. Qed.
