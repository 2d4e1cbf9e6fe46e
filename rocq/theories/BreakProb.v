(** * BreakProb: closed form of trend.BreakoutProbability. *)
From Verif Require Import Base Num Containers Ta TaTools TaElem Sides Klines IndBase IndTrend IndTools IndForms IndForms2 IndMachines.
Set Implicit Arguments.

(** number of bars in 1..i at which the event happens *)
Fixpoint cnt (P : nat -> bool) (i : nat) : Z := match i with O => 0 | S j => cnt P j + (if P (S j) then 1 else 0) end.
Section BP.
Context {N : Num}.
(** 100 * (events so far) / (cases so far), taken at the last bar at which the event happened; 0 before *)
Fixpoint pct (P Q : nat -> bool) (i : nat) : F :=
  match i with O => ofZ 0 | S j => if P (S j) then ofZ (cnt P (S j)) /~ ofZ (cnt Q (S j)) *~ ofZ 100 else pct P Q j end.

Section Score.
Variables (G R x h hp l lp : F) (green red : bool).
Let hh := h >~ (hp +~ x).
Let ll := l >~ (lp -~ x).
Definition inc (b : bool) (c : Z) := if b then c + 1 else c.
Definition new (b : bool) (c t : Z) (v : F) := if b then ofZ (c + 1) /~ ofZ t *~ ofZ 100 else v.
Ltac sc := intros; unfold bp_score, bp_hit, inc, new; subst hh ll; destruct green, red, (hp +~ x <~ h), (lp -~ x <~ l); reflexivity.
Definition rowZ (a b c d : Z) := [inc (green && hh) a; inc (green && ll) b; inc (red && hh) c; inc (red && ll) d].
Definition rowF (a b c d : Z) (g r : Z) (v w y z : F) :=
  [new (green && hh) a g v; new (green && ll) b g w; new (red && hh) c r y; new (red && ll) d r z].
Lemma score0 a b c d r1 r2 r3 r4 g r t5 r6 v w y z s1 s2 s3 s4 :
  bp_score x 0 green red h hp l lp ([[a; b; c; d]; r1; r2; r3; r4; g :: r :: t5; r6], [[v; w; y; z]; s1; s2; s3; s4])
  = Ok ([rowZ a b c d; r1; r2; r3; r4; g :: r :: t5; r6], [rowF a b c d g r v w y z; s1; s2; s3; s4]).
Proof. unfold rowZ, rowF. sc. Qed.
Lemma score1 a b c d r1 r2 r3 r4 g r t5 r6 v w y z s1 s2 s3 s4 :
  bp_score x 1 green red h hp l lp ([r1; [a; b; c; d]; r2; r3; r4; g :: r :: t5; r6], [s1; [v; w; y; z]; s2; s3; s4])
  = Ok ([r1; rowZ a b c d; r2; r3; r4; g :: r :: t5; r6], [s1; rowF a b c d g r v w y z; s2; s3; s4]).
Proof. unfold rowZ, rowF. sc. Qed.
Lemma score2 a b c d r1 r2 r3 r4 g r t5 r6 v w y z s1 s2 s3 s4 :
  bp_score x 2 green red h hp l lp ([r1; r2; [a; b; c; d]; r3; r4; g :: r :: t5; r6], [s1; s2; [v; w; y; z]; s3; s4])
  = Ok ([r1; r2; rowZ a b c d; r3; r4; g :: r :: t5; r6], [s1; s2; rowF a b c d g r v w y z; s3; s4]).
Proof. unfold rowZ, rowF. sc. Qed.
Lemma score3 a b c d r1 r2 r3 r4 g r t5 r6 v w y z s1 s2 s3 s4 :
  bp_score x 3 green red h hp l lp ([r1; r2; r3; [a; b; c; d]; r4; g :: r :: t5; r6], [s1; s2; s3; [v; w; y; z]; s4])
  = Ok ([r1; r2; r3; rowZ a b c d; r4; g :: r :: t5; r6], [s1; s2; s3; rowF a b c d g r v w y z; s4]).
Proof. unfold rowZ, rowF. sc. Qed.
Lemma score4 a b c d r1 r2 r3 r4 g r t5 r6 v w y z s1 s2 s3 s4 :
  bp_score x 4 green red h hp l lp ([r1; r2; r3; r4; [a; b; c; d]; g :: r :: t5; r6], [s1; s2; s3; s4; [v; w; y; z]])
  = Ok ([r1; r2; r3; r4; rowZ a b c d; g :: r :: t5; r6], [s1; s2; s3; s4; rowF a b c d g r v w y z]).
Proof. unfold rowZ, rowF. sc. Qed.
End Score.

Definition bp_one (green red : bool) (h l step : F) (v : F * F * F * F) (k : Z) : option (BPItem * BPItem) :=
  let '(v0, v1, v2, v3) := v in
  if (green && (fmin v0 v1 >~ ofZ 0)) || (red && (fmin v2 v3 >~ ofZ 0))
  then Some (mkBPItem (h +~ step *~ ofZ k) (if green then v0 else v2) true, mkBPItem (l -~ step *~ ofZ k) (if green then v1 else v3) false)
  else None.
Definition bp_shown (lines : Z) green red h l step (v : nat -> F * F * F * F) (k : nat) : BPItem * BPItem :=
  if Z.of_nat k <? lines then
    match bp_one green red h l step (v k) (Z.of_nat k) with Some q => q | None => (bp_item0, bp_item0) end
  else (bp_item0, bp_item0).
Definition qrow (q : F * F * F * F) : list F := let '(a, b, c, d) := q in [a; b; c; d].
Lemma bp_list_T lines green red h l step v : 1 <= lines <= 5 ->
  bp_list lines green red h l step (map qrow (map v [0; 1; 2; 3; 4]%nat)) =
  Ok (tab 5 (fun k => fst (bp_shown lines green red h l step v k)) ++ tab 5 (fun k => snd (bp_shown lines green red h l step v k))).
Proof.
  intros Hl. unfold bp_list, bp_shown, bp_one.
  destruct (v 0%nat) as [[[a0 b0] c0] d0] eqn:E0, (v 1%nat) as [[[a1 b1] c1] d1] eqn:E1, (v 2%nat) as [[[a2 b2] c2] d2] eqn:E2,
    (v 3%nat) as [[[a3 b3] c3] d3] eqn:E3, (v 4%nat) as [[[a4 b4] c4] d4] eqn:E4.
  cbn [map]. rewrite E0, E1, E2, E3, E4. cbn [qrow].
  assert (lines = 1 \/ lines = 2 \/ lines = 3 \/ lines = 4 \/ lines = 5) as [->|[->|[->|[->| ->]]]] by lia;
  cbv -[fmin flt ofZ fadd fsub fmul fzero andb orb]; rewrite ?E0, ?E1, ?E2, ?E3, ?E4.
  all: repeat match goal with |- context [?a || ?b] => destruct (a || b) end; reflexivity.
Qed.

Lemma inc_cnt P i : inc (P (S i)) (cnt P i) = cnt P (S i).
Proof. unfold inc. cbn [cnt]. destruct (P (S i)); lia. Qed.
Lemma new_pct P Q i : new (P (S i)) (cnt P i) (cnt Q (S i)) (pct P Q i) = pct P Q (S i).
Proof. unfold new. cbn [pct cnt]. destruct (P (S i)); reflexivity. Qed.

Section Cells.
Variables (A : Type) (r0 r1 r2 r3 r4 r5 r6 : list A) (g r x y v : A).
Lemma get50 : get2 [r0; r1; r2; r3; r4; [g; r; x; y]; r6] 5 0 = Ok g. Proof. reflexivity. Qed.
Lemma get51 : get2 [r0; r1; r2; r3; r4; [g; r; x; y]; r6] 5 1 = Ok r. Proof. reflexivity. Qed.
Lemma get60 : get2 [r0; r1; r2; r3; r4; r5; [g; r; x; y]] 6 0 = Ok g. Proof. reflexivity. Qed.
Lemma get61 : get2 [r0; r1; r2; r3; r4; r5; [g; r; x; y]] 6 1 = Ok r. Proof. reflexivity. Qed.
Lemma set50 : set2 [r0; r1; r2; r3; r4; [g; r; x; y]; r6] 5 0 v = Ok [r0; r1; r2; r3; r4; [v; r; x; y]; r6]. Proof. reflexivity. Qed.
Lemma set51 : set2 [r0; r1; r2; r3; r4; [g; r; x; y]; r6] 5 1 v = Ok [r0; r1; r2; r3; r4; [g; v; x; y]; r6]. Proof. reflexivity. Qed.
Lemma set60 : set2 [r0; r1; r2; r3; r4; r5; [g; r; x; y]] 6 0 v = Ok [r0; r1; r2; r3; r4; r5; [v; r; x; y]]. Proof. reflexivity. Qed.
Lemma set61 : set2 [r0; r1; r2; r3; r4; r5; [g; r; x; y]] 6 1 v = Ok [r0; r1; r2; r3; r4; r5; [g; v; x; y]]. Proof. reflexivity. Qed.
End Cells.
Section Form.
Variables (p : BPP) (kl : list Candle).
Let c i := cn kl i.
Definition bgreen (i : nat) : bool := cClose (c (i - 1)) >~ cOpen (c (i - 1)).
Definition bred (i : nat) : bool := cClose (c (i - 1)) <~ cOpen (c (i - 1)).
Definition bstep (i : nat) : F := cClose (c i) *~ (bpStep p /~ ofZ 100).
Definition boff (k i : nat) : F := match k with O => ofZ 0 | 1%nat => bstep i | _ => bstep i *~ ofZ (Z.of_nat k) end.
Definition bhh (k i : nat) : bool := cHigh (c i) >~ (cHigh (c (i - 1)) +~ boff k i).
Definition bll (k i : nat) : bool := cLow (c i) >~ (cLow (c (i - 1)) -~ boff k i).
Definition bgu k i := bgreen i && bhh k i.
Definition bgd k i := bgreen i && bll k i.
Definition bru k i := bred i && bhh k i.
Definition brd k i := bred i && bll k i.
Definition btot (i k : nat) : list Z := [cnt (bgu k) i; cnt (bgd k) i; cnt (bru k) i; cnt (brd k) i].
Definition bval (i k : nat) : F * F * F * F := (pct (bgu k) bgreen i, pct (bgd k) bgreen i, pct (bru k) bred i, pct (brd k) bred i).
(** the level the bar is tested against, and the outcome *)
Definition blevel (i : nat) : F :=
  let '(a1, b1, a2, b2) := bval i 0 in
  if (if bgreen i then fmax a1 b1 ==~ a1 else fmax a2 b2 ==~ a2) then cHigh (c (i - 1)) else cLow (c (i - 1)).
Definition bwin (i : nat) : bool :=
  if blevel i ==~ cHigh (c (i - 1)) then cHigh (c i) >=~ blevel i else cLow (c i) <=~ blevel i.
Definition bstate (i : nat) : matZ * matF :=
  (map (btot i) [0; 1; 2; 3; 4]%nat ++ [[cnt bgreen i; cnt bred i; 0; 0]; [cnt bwin i; cnt (fun j => negb (bwin j)) i; 0; 0]],
   map qrow (map (bval i) [0; 1; 2; 3; 4]%nat)).
Definition bshow (i : nat) : nat -> BPItem * BPItem :=
  bp_shown (bp_clamp (bpLines p)) (bgreen i) (bred i) (cHigh (c i)) (cLow (c i)) (bstep i) (bval i).
Definition bout (i : nat) : BPV :=
  mkBPV (tab 5 (fun k => fst (bshow i k)) ++ tab 5 (fun k => snd (bshow i k))) (ofZ (cnt bwin i)) (ofZ (cnt (fun j => negb (bwin j)) i)).

Lemma clamp_range n : 1 <= bp_clamp n <= 5.
Proof. unfold bp_clamp. destruct (Z.ltb_spec n 1); [cbn; lia|]. rewrite Z.gtb_ltb. destruct (Z.ltb_spec 5 n); lia. Qed.
Lemma bp_bar_T i :
  bp_bar p (cOpen (c (S i))) (cHigh (c (S i))) (cLow (c (S i))) (cClose (c (S i))) (cOpen (c i)) (cClose (c i)) (cHigh (c i)) (cLow (c i)) (bstate i)
  = Ok (bstate (S i), bout (S i)).
Proof.
  assert (Ei : (S i - 1)%nat = i) by lia.
  assert (R : forall k, rowZ (boff k (S i)) (cHigh (c (S i))) (cHigh (c i)) (cLow (c (S i))) (cLow (c i)) (bgreen (S i)) (bred (S i))
      (cnt (bgu k) i) (cnt (bgd k) i) (cnt (bru k) i) (cnt (brd k) i) = btot (S i) k).
  { intros k. unfold rowZ, btot. rewrite <- !inc_cnt. unfold bgu, bgd, bru, brd, bhh, bll. rewrite Ei. reflexivity. }
  assert (R' : forall k, rowF (boff k (S i)) (cHigh (c (S i))) (cHigh (c i)) (cLow (c (S i))) (cLow (c i)) (bgreen (S i)) (bred (S i))
      (cnt (bgu k) i) (cnt (bgd k) i) (cnt (bru k) i) (cnt (brd k) i) (cnt bgreen (S i)) (cnt bred (S i))
      (pct (bgu k) bgreen i) (pct (bgd k) bgreen i) (pct (bru k) bred i) (pct (brd k) bred i) = qrow (bval (S i) k)).
  { intros k. unfold rowF, bval, qrow. rewrite <- !new_pct. unfold bgu at 1 3, bgd at 1 3, bru at 1 3, brd at 1 3, bhh, bll. rewrite Ei. reflexivity. }
  unfold bp_bar, bstate at 1. cbn [map app]. 
  assert (B1 : forall k, btot i k = [cnt (bgu k) i; cnt (bgd k) i; cnt (bru k) i; cnt (brd k) i]) by reflexivity.
  assert (B2 : forall k, qrow (bval i k) = [pct (bgu k) bgreen i; pct (bgd k) bgreen i; pct (bru k) bred i; pct (brd k) bred i]) by reflexivity.
  rewrite !B1, !B2. clear B1 B2.
  assert (Hg : (cOpen (c i) <~ cClose (c i)) = bgreen (S i)) by (unfold bgreen; now rewrite Ei). rewrite Hg.
  assert (Hr : (cClose (c i) <~ cOpen (c i)) = bred (S i)) by (unfold bred; now rewrite Ei). rewrite Hr.
  change (cClose (c (S i)) *~ (bpStep p /~ ofZ 100)) with (bstep (S i)).
  rewrite get50. cbn [bind]. rewrite set50. cbn [bind]. rewrite get51. cbn [bind]. rewrite set51. cbn [bind].
  change (cnt bgreen i + (if bgreen (S i) then 1 else 0)) with (cnt bgreen (S i)).
  change (cnt bred i + (if bred (S i) then 1 else 0)) with (cnt bred (S i)).
  change (bstep (S i) *~ ofZ 2) with (boff 2 (S i)). change (bstep (S i) *~ ofZ 3) with (boff 3 (S i)). change (bstep (S i) *~ ofZ 4) with (boff 4 (S i)).
  rewrite (score0 (ofZ 0)). cbn [bind]. rewrite (score1 (bstep (S i))). cbn [bind]. rewrite score2. cbn [bind]. rewrite score3. cbn [bind]. rewrite score4. cbn [bind].
  change (rowZ (ofZ 0)) with (rowZ (boff 0 (S i))). change (rowZ (bstep (S i))) with (rowZ (boff 1 (S i))).
  change (rowF (ofZ 0)) with (rowF (boff 0 (S i))). change (rowF (bstep (S i))) with (rowF (boff 1 (S i))).
  rewrite !R, !R'.
  assert (V : forall j x, nth_error (qrow (bval (S i) 0)) j = Some x ->
    get2 [qrow (bval (S i) 0); qrow (bval (S i) 1); qrow (bval (S i) 2); qrow (bval (S i) 3); qrow (bval (S i) 4)] 0 (Z.of_nat j) = Ok x).
  { intros j x Hx. unfold get2. change (get [qrow (bval (S i) 0); qrow (bval (S i) 1); qrow (bval (S i) 2); qrow (bval (S i) 3); qrow (bval (S i) 4)] 0) with (Ok (qrow (bval (S i) 0))).
    cbn [bind]. apply get_ok_iff. split; [lia|]. now rewrite Nat2Z.id. }
  pose proof (V 0%nat _ eq_refl) as V0. pose proof (V 1%nat _ eq_refl) as V1. pose proof (V 2%nat _ eq_refl) as V2. pose proof (V 3%nat _ eq_refl) as V3.
  cbn [Z.of_nat Pos.of_succ_nat Pos.succ] in V0, V1, V2, V3. rewrite V0, V1, V2, V3. cbn [bind].
  match goal with |- context [bp_list ?a ?b ?c ?d ?e ?f ?g] => change (bp_list a b c d e f g) with (bp_list a b c d e f (map qrow (map (bval (S i)) [0; 1; 2; 3; 4]%nat))) end.
  rewrite bp_list_T by apply clamp_range. cbn [bind].
  match goal with |- bind (if ?g then if ?x then bp_backtest ?m ?h ?hp ?l ?hp else bp_backtest ?m ?h ?hp ?l ?lp else if ?y then _ else _) ?k = _ =>
    replace (if g then if x then bp_backtest m h hp l hp else bp_backtest m h hp l lp else if y then bp_backtest m h hp l hp else bp_backtest m h hp l lp)
      with (bp_backtest m h hp l (blevel (S i))) by (unfold blevel; cbn [bval]; rewrite Ei; destruct g, x, y; reflexivity) end.
  unfold bp_backtest. rewrite get60, get61. cbn [bind].
  assert (W : forall (T : Type) (a b : T), (if blevel (S i) ==~ cHigh (c i) then if blevel (S i) <=~ cHigh (c (S i)) then a else b else if cLow (c (S i)) <=~ blevel (S i) then a else b)
     = if bwin (S i) then a else b).
  { intros T a b. unfold bwin. rewrite Ei. destruct (blevel (S i) ==~ cHigh (c i)); reflexivity. }
  rewrite W. rewrite set60, set61.
  assert (Fin : bstate (S i) = ([btot (S i) 0; btot (S i) 1; btot (S i) 2; btot (S i) 3; btot (S i) 4; [cnt bgreen (S i); cnt bred (S i); 0; 0];
     [cnt bwin (S i); cnt (fun j => negb (bwin j)) (S i); 0; 0]], map qrow (map (bval (S i)) [0; 1; 2; 3; 4]%nat))) by reflexivity.
  rewrite Fin. clear Fin. unfold bout. rewrite <- !inc_cnt. cbn beta. unfold inc. destruct (bwin (S i)); cbn [bind negb]; rewrite get60, get61; reflexivity.
Qed.
Definition browF (i : nat) : BPV := match i with O => mkBPV [] fzero fzero | _ => bout i end.
Lemma Breakout_T : rows_of I_BreakoutProbability p kl =
  Ok (tab (length kl) (fun i => mkRow (match i with O => zero_time | _ => tm kl i end) (browF i))).
Proof.
  T_start I_BreakoutProbability bp_calc. rewrite len_tab, make_tab. cbn [bind].
  set (g := fun i => mkRow (match i with O => zero_time | _ => tm kl i end) (browF i)).
  set (z := mkRow zero_time (mkBPV [] fzero fzero)).
  destruct (Nat.eq_dec (length kl) 0) as [Hz|Hz].
  { rewrite Hz. reflexivity. }
  assert (Hn : (1 <= length kl)%nat) by lia.
  rewrite (@for_nat _ (fun i => (bstate (pred i), partial z g (length kl) i)) 1 (length kl)).
  - cbn [bind]. now rewrite partial_full.
  - exact Hn.
  - cbn [pred]. rewrite <- (@partial_skips _ z g (length kl) 1); [reflexivity|lia|]. intros k Hk. assert (k = 0)%nat as -> by lia. reflexivity.
  - intros i Hi. destruct i as [|i]; [lia|]. rewrite time_in_T by lia. cbn [bind]. rewrite !get_tab by lia. cbn [bind]. rewrite !get_tabp by lia. cbn [bind pred].
    rewrite bp_bar_T. cbn [bind]. rewrite partial_set by (try lia; reflexivity). reflexivity.
Qed.
End Form.
End BP.
