(** * IndRsi: range of the RSI values, for exact arithmetic and float64. *)
From Coq Require Import Reals Lra ZArith Lia Bool.
From Verif Require Import Base Num XReal Order FloatLaws FloatOrder FloatBounds Ta IndTrend IndForms IndForms3.
Set Implicit Arguments.

Section R.
Context {N : Num}.
Variable okv : F -> Prop.
Variable ext : F -> xr.
Variable rd : R -> xr.
Hypothesis RL : RndLaws N okv ext rd.
Let A := rl_A RL.
Local Notation nng := (nng okv ext).
Local Notation fb := (fb okv ext).
Hypothesis H14 : (lit (-1) 100000000000000 <~ ofZ 0) = true /\ (ofZ 0 <~ lit 1 100000000000000) = true.
Variable p : nat.
Hypothesis Hp : (1 <= Z.of_nat p <= 2 ^ 51)%Z.
Variable f : nat -> F.

(** the guard |gain + loss| >= 1e-14 excludes 0 *)
Lemma guard_ne t : okv t -> negb ((lit (-1) 100000000000000 <~ t) && (t <~ lit 1 100000000000000)) = true -> ext t <> Fin 0.
Proof.
  intros Ht G E. destruct H14 as [H1 H2]. rewrite (rl_lt RL) in G, H1, H2; try apply (al_lit A); try apply (al_Z A); auto.
  rewrite (rl_lt RL) in G; try apply (al_lit A); auto. rewrite (rl_Z RL) in H1, H2 by lia. rewrite E in G. cbn [IZR] in *.
  now rewrite H1, H2 in G.
Qed.

(** ** Any data: never below 0, never above 100 *)
Lemma rsi_add_nng c g l : okv c -> nng g -> nng l -> nng (fst (rsi_add c g l)) /\ nng (snd (rsi_add c g l)).
Proof.
  intros Hc Hg Hl. unfold rsi_add. destruct (c <~ ofZ 0) eqn:E; cbn [fst snd]; split; try assumption.
  - apply (nng_sub RL); [apply Hl|exact Hc|]. rewrite (rl_lt RL) in * by (try apply (al_Z A); auto; apply Hl). rewrite (rl_Z RL) in E by lia.
    destruct Hl as [_ Hl]. destruct (ext c) as [r| | |], (ext l) as [s| | |]; cbn in *; try reflexivity; try discriminate.
    apply Rltb_t in E. apply Rltb_f in Hl. apply Rltb_f. lra.
  - apply (nng_add RL); [assumption|]. apply (nng_lt RL). auto.
Qed.
Lemma nng0 : nng (ofZ 0). Proof. apply (nng_Z RL); lia. Qed.
Lemma rsiA_nng j : (forall i, (i <= j)%nat -> okv (f i)) -> nng (fst (rsiA f j)) /\ nng (snd (rsiA f j)).
Proof.
  induction j as [|j IH]; intros Hf; cbn [rsiA]; [split; apply nng0|].
  destruct IH as [I1 I2]; [intros; apply Hf; lia|]. apply rsi_add_nng; auto. apply (al_sub A); apply Hf; lia.
Qed.
Lemma rsi_avg_nng gl : nng (fst gl) -> nng (snd gl) -> nng (fst (rsi_avg p gl)) /\ nng (snd (rsi_avg p gl)).
Proof. intros H1 H2. split; (apply (nng_div RL); [assumption|apply (nng_Z RL); lia|apply (pos_ne RL); lia]). Qed.
Lemma rsiW_nng d : (forall i, (i <= p + d)%nat -> okv (f i)) -> nng (fst (rsiW p f d)) /\ nng (snd (rsiW p f d)).
Proof.
  induction d as [|d IH]; intros Hf; cbn [rsiW].
  - destruct (@rsiA_nng p) as [I1 I2]; [intros; apply Hf; lia|]. now apply rsi_avg_nng.
  - destruct IH as [I1 I2]; [intros; apply Hf; lia|].
    edestruct rsi_add_nng as [J1 J2]; [| | |apply rsi_avg_nng; [exact J1|exact J2]]; [apply (al_sub A); apply Hf; lia|..];
      apply (nng_mul RL); auto; apply (nng_Z RL); lia.
Qed.
Lemma rsi_out_nng g l : nng g -> nng l -> nng (rsi_out g l) /\ (ofZ 100 <~ rsi_out g l) = false.
Proof.
  intros Hg Hl. unfold rsi_out. destruct (negb _) eqn:E.
  - pose proof (nng_add RL Hg Hl) as Ht. apply guard_ne in E; [|apply Ht].
    pose proof (nng_div RL Hg Ht E) as Hq. split; [apply (nng_mul RL); [apply (nng_Z RL); lia|exact Hq]|].
    apply (scale_le RL); [lia|exact Hq|]. apply (share_le1 RL); auto. apply (add_ge RL); [apply Hg|exact Hl].
  - split; [apply nng0|]. rewrite (rl_lt RL) by apply (al_Z A). rewrite !(rl_Z RL) by lia. cbn. apply Rltb_f. lra.
Qed.
Lemma rsiF_nng i : (forall j, (j <= i)%nat -> okv (f j)) -> okv (rsiF p f i) /\ (rsiF p f i <~ ofZ 0) = false /\ (ofZ 100 <~ rsiF p f i) = false.
Proof.
  intros Hf. unfold rsiF. destruct (Nat.ltb_spec i p).
  - split; [apply (al_Z A)|]. unfold fzero. rewrite !(rl_lt RL) by apply (al_Z A). rewrite !(rl_Z RL) by lia. cbn. rewrite !Rltb_f. lra.
  - destruct (@rsiW_nng (i - p)) as [W1 W2]; [intros; apply Hf; lia|]. destruct (rsi_out_nng W1 W2) as [O1 O2].
    apply (nng_lt RL) in O1. tauto.
Qed.

(** ** Numbers of moderate size: a number between 0 and 100 *)
Variable B : R.
Hypothesis SL : ScaleLaw B rd.
Lemma rsi_add_fb c g l G : (0 <= G <= 2 ^ 52)%Z -> fb B (-2) 2 c -> fb B 0 G g -> fb B 0 G l -> fb B 0 (G + 2) (fst (rsi_add c g l)) /\ fb B 0 (G + 2) (snd (rsi_add c g l)).
Proof.
  intros HG Hc Hg Hl. unfold rsi_add. destruct (c <~ ofZ 0) eqn:E; cbn [fst snd]; split; try (eapply (fb_weaken SL); [| |eassumption]; lia).
  - replace 0%Z with (0 - 0)%Z by reflexivity. replace (G + 2)%Z with (G - -2)%Z by lia. apply (fb_sub RL SL); try lia; [exact Hl|]. now apply (fb_neg RL) with (2%Z).
  - replace 0%Z with (0 + 0)%Z by reflexivity. apply (fb_add RL SL); try lia; [exact Hg|]. now apply (fb_pos RL) with ((-2)%Z).
Qed.
Lemma change_fb a b : fb B (-1) 1 a -> fb B (-1) 1 b -> fb B (-2) 2 (a -~ b).
Proof. intros Ha Hb. change (-2)%Z with (-1 - 1)%Z. change 2%Z with (1 - -1)%Z. now apply (fb_sub RL SL). Qed.
Lemma rsiA_fb j : (j <= p)%nat -> (forall i, (i <= j)%nat -> fb B (-1) 1 (f i)) -> fb B 0 (2 * Z.of_nat j) (fst (rsiA f j)) /\ fb B 0 (2 * Z.of_nat j) (snd (rsiA f j)).
Proof.
  induction j as [|j IH]; intros Hj Hf; cbn [rsiA]; [split; apply (fb_0 RL SL); lia|].
  destruct IH as [I1 I2]; [lia|intros; apply Hf; lia|]. replace (2 * Z.of_nat (S j))%Z with (2 * Z.of_nat j + 2)%Z by lia.
  apply rsi_add_fb; auto; [lia|]. apply change_fb; apply Hf; lia.
Qed.
Lemma rsi_avg_fb gl : fb B 0 (2 * Z.of_nat p) (fst gl) -> fb B 0 (2 * Z.of_nat p) (snd gl) -> fb B 0 2 (fst (rsi_avg p gl)) /\ fb B 0 2 (snd (rsi_avg p gl)).
Proof. intros H1 H2. split; cbn [rsi_avg fst snd]; (apply (fb_divZ RL SL); [lia|lia|lia|]); rewrite Z.mul_0_l; assumption. Qed.
Lemma rsiW_fb d : (forall i, (i <= p + d)%nat -> fb B (-1) 1 (f i)) -> fb B 0 2 (fst (rsiW p f d)) /\ fb B 0 2 (snd (rsiW p f d)).
Proof.
  induction d as [|d IH]; intros Hf; cbn [rsiW].
  - destruct (@rsiA_fb p) as [I1 I2]; [lia|intros; apply Hf; lia|]. now apply rsi_avg_fb.
  - destruct IH as [I1 I2]; [intros; apply Hf; lia|].
    edestruct (@rsi_add_fb (f (p + S d)%nat -~ f (p + d)%nat) (fst (rsiW p f d) *~ ofZ (Z.of_nat p - 1)) (snd (rsiW p f d) *~ ofZ (Z.of_nat p - 1)) (2 * (Z.of_nat p - 1))) as [J1 J2].
    + lia.
    + apply change_fb; apply Hf; lia.
    + change 0%Z with (0 * (Z.of_nat p - 1))%Z. apply (fb_mulZ RL SL); lia || assumption.
    + change 0%Z with (0 * (Z.of_nat p - 1))%Z. apply (fb_mulZ RL SL); lia || assumption.
    + replace (2 * (Z.of_nat p - 1) + 2)%Z with (2 * Z.of_nat p)%Z in * by lia. now apply rsi_avg_fb.
Qed.
Open Scope R_scope.
Lemma rsi_out_fb g l : fb B 0 2 g -> fb B 0 2 l -> exists r, ext (rsi_out g l) = Fin r /\ 0 <= r <= 100.
Proof.
  intros Hg Hl. unfold rsi_out. destruct (negb _) eqn:E.
  - assert (Ht : fb B 0 4 (g +~ l)) by (change 0%Z with (0 + 0)%Z; change 4%Z with (2 + 2)%Z; now apply (fb_add RL SL)).
    apply guard_ne in E; [|apply Ht].
    destruct Hg as (G1 & rg & G2 & G3), Hl as (L1 & rl & L2 & L3), Ht as (T1 & rt & T2 & T3).
    assert (Hgt : rg <= rt).
    { pose proof (@add_ge N okv ext rd RL g l G1) as Q. rewrite (rl_lt RL) in Q by assumption. rewrite G2, T2 in Q. cbn in Q. apply Rltb_f. apply Q.
      split; [exact L1|]. rewrite L2. cbn. apply Rltb_f. lra. }
    assert (rt <> 0) by (intros ->; now rewrite T2 in E).
    rewrite Rmult_0_l in *.
    assert (Q : ext (g /~ (g +~ l)) = rd (rg / rt)).
    { rewrite (rl_div RL) by assumption. rewrite G2, T2. cbn [xdiv]. destruct (Reqb_spec rt 0); [contradiction|reflexivity]. }
    destruct (@rd_between N okv ext rd RL 1 (scale_1 RL) (rg / rt) 0 1) as (q & Q1 & Q2); [lia|lia|..].
    { rewrite !Rmult_1_r. split; [apply Rmult_le_pos; [lra|left; apply Rinv_0_lt_compat; lra]|]. apply Rmult_le_reg_r with rt; [lra|]. unfold Rdiv. rewrite Rmult_assoc, Rinv_l; lra. }
    rewrite (rl_mul RL); [|apply (al_Z A)|apply (al_div A); assumption]. rewrite Q, Q1, (rl_Z RL) by lia. cbn [xmul rdx].
    destruct (@rd_between N okv ext rd RL 1 (scale_1 RL) (100 * q) 0 100) as (s & S1 & S2); [lia|lia|lra|]. exists s. split; [exact S1|lra].
  - exists 0. split; [apply (rl_Z RL); lia|lra].
Qed.
Lemma rsiF_fb i : (forall j, (j <= i)%nat -> fb B (-1) 1 (f j)) -> exists r, ext (rsiF p f i) = Fin r /\ 0 <= r <= 100.
Proof.
  intros Hf. unfold rsiF. destruct (Nat.ltb_spec i p).
  - exists 0. split; [apply (rl_Z RL); lia|lra].
  - destruct (@rsiW_fb (i - p)) as [W1 W2]; [intros; apply Hf; lia|]. now apply rsi_out_fb.
Qed.

(** ** only gains, only losses *)
Lemma zero_div x : okv x -> ext x = Fin 0 -> ext (x /~ ofZ (Z.of_nat p)) = Fin 0.
Proof.
  intros Hx E. rewrite (rl_div RL); [|exact Hx|apply (al_Z A)|apply (pos_ne RL); lia]. rewrite E, (rl_Z RL) by lia. cbn [xdiv].
  destruct (Reqb_spec (IZR (Z.of_nat p)) 0) as [E0|_]; [apply eq_IZR in E0; lia|]. replace (0 / IZR (Z.of_nat p)) with 0 by (unfold Rdiv; now rewrite Rmult_0_l). apply (rd_int RL 0); lia.
Qed.
Lemma zero_mul x : okv x -> ext x = Fin 0 -> ext (x *~ ofZ (Z.of_nat p - 1)) = Fin 0.
Proof. intros Hx E. rewrite (rl_mul RL) by (auto; apply (al_Z A)). rewrite E, (rl_Z RL) by lia. cbn [xmul rdx]. rewrite Rmult_0_l. apply (rd_int RL 0); lia. Qed.
Lemma add_up c g l : okv c -> okv l -> (c <~ ofZ 0) = false -> snd (rsi_add c g l) = l.
Proof. intros _ _ E. unfold rsi_add. now rewrite E. Qed.
Lemma add_down c g l r : okv c -> okv g -> ext c = Fin r -> r <= 0 -> ext g = Fin 0 -> okv (fst (rsi_add c g l)) /\ ext (fst (rsi_add c g l)) = Fin 0.
Proof.
  intros Hc Hg Er Hr Eg. unfold rsi_add. rewrite (rl_lt RL) by (auto; apply (al_Z A)). rewrite Er, (rl_Z RL) by lia. cbn [xlt].
  unfold Rltb. destruct (Rlt_dec r 0); cbn [fst]; [auto|]. split; [now apply (al_add A)|]. rewrite (rl_add RL) by assumption. rewrite Eg, Er. cbn [xadd rdx].
  replace (0 + r) with 0 by lra. apply (rd_int RL 0); lia.
Qed.
Definition rises i := forall j, (j < i)%nat -> (f (S j) -~ f j <~ ofZ 0) = false.
Definition falls i := forall j, (j < i)%nat -> exists r, ext (f (S j) -~ f j) = Fin r /\ r <= 0.
Lemma rise_A j : (forall i, (i <= j)%nat -> okv (f i)) -> rises j -> okv (snd (rsiA f j)) /\ ext (snd (rsiA f j)) = Fin 0.
Proof.
  induction j as [|j IH]; intros Hf Hr; cbn [rsiA]; [split; [apply (al_Z A)|apply (rl_Z RL); lia]|].
  destruct IH as [I1 I2]; [intros; apply Hf; lia|intros i Hi; apply Hr; lia|].
  rewrite add_up; auto. - apply (al_sub A); apply Hf; lia. 
Qed.
Lemma rise_W d : (forall i, (i <= p + d)%nat -> okv (f i)) -> rises (p + d) -> okv (snd (rsiW p f d)) /\ ext (snd (rsiW p f d)) = Fin 0.
Proof.
  induction d as [|d IH]; intros Hf Hr; cbn [rsiW rsi_avg snd].
  - destruct (@rise_A p) as [I1 I2]; [intros; apply Hf; lia|intros i Hi; apply Hr; lia|]. split; [apply (al_div A); [exact I1|apply (al_Z A)]|now apply zero_div].
  - destruct IH as [I1 I2]; [intros; apply Hf; lia|intros i Hi; apply Hr; lia|].
    assert (M : okv (snd (rsiW p f d) *~ ofZ (Z.of_nat p - 1))) by (apply (al_mul A); [exact I1|apply (al_Z A)]).
    rewrite add_up; auto.
    + split; [apply (al_div A); [exact M|apply (al_Z A)]|]. apply zero_div; [exact M|]. now apply zero_mul.
    + apply (al_sub A); apply Hf; lia.
    + replace (p + S d)%nat with (S (p + d)) by lia. apply Hr. lia.
Qed.
Lemma fall_A j : (forall i, (i <= j)%nat -> okv (f i)) -> falls j -> okv (fst (rsiA f j)) /\ ext (fst (rsiA f j)) = Fin 0.
Proof.
  induction j as [|j IH]; intros Hf Hr; cbn [rsiA]; [split; [apply (al_Z A)|apply (rl_Z RL); lia]|].
  destruct IH as [I1 I2]; [intros; apply Hf; lia|intros i Hi; apply Hr; lia|].
  destruct (Hr j) as (r & R1 & R2); [lia|]. eapply add_down; eauto. apply (al_sub A); apply Hf; lia.
Qed.
Lemma fall_W d : (forall i, (i <= p + d)%nat -> okv (f i)) -> falls (p + d) -> okv (fst (rsiW p f d)) /\ ext (fst (rsiW p f d)) = Fin 0.
Proof.
  induction d as [|d IH]; intros Hf Hr; cbn [rsiW]; match goal with |- context [rsi_avg p ?x] => change (fst (rsi_avg p x)) with (fst x /~ ofZ (Z.of_nat p)) end.
  - destruct (@fall_A p) as [I1 I2]; [intros; apply Hf; lia|intros i Hi; apply Hr; lia|]. split; [apply (al_div A); [exact I1|apply (al_Z A)]|now apply zero_div].
  - destruct IH as [I1 I2]; [intros; apply Hf; lia|intros i Hi; apply Hr; lia|].
    assert (M : okv (fst (rsiW p f d) *~ ofZ (Z.of_nat p - 1))) by (apply (al_mul A); [exact I1|apply (al_Z A)]).
    destruct (Hr (p + d)%nat) as (r & R1 & R2); [lia|]. replace (S (p + d)) with (p + S d)%nat in R1 by lia.
    destruct (@add_down (f (p + S d)%nat -~ f (p + d)%nat) (fst (rsiW p f d) *~ ofZ (Z.of_nat p - 1)) (snd (rsiW p f d) *~ ofZ (Z.of_nat p - 1)) r) as [D1 D2]; auto.
    + apply (al_sub A); apply Hf; lia.
    + now apply zero_mul.
    + split; [apply (al_div A); [exact D1|apply (al_Z A)]|now apply zero_div].
Qed.
Lemma out_rise g l : fb B 0 2 g -> okv l -> ext l = Fin 0 -> ext (rsi_out g l) = Fin 100 \/ ((g +~ l <~ lit 1 100000000000000) = true /\ ext (rsi_out g l) = Fin 0).
Proof.
  intros (G1 & r & G2 & G3) Hl El. unfold rsi_out.
  assert (T : ext (g +~ l) = Fin r). { rewrite (rl_add RL) by assumption. rewrite G2, El. cbn [xadd rdx]. rewrite Rplus_0_r. now apply (rd_val RL g). }
  destruct (_ && _) eqn:E; cbn [negb].
  - right. apply andb_prop in E as [_ E]. split; [exact E|]. apply (rl_Z RL 0); lia.
  - left. assert (Ht : okv (g +~ l)) by (now apply (al_add A)). pose proof (@guard_ne _ Ht) as Q. rewrite E in Q. specialize (Q eq_refl). rewrite T in Q.
    assert (D : ext (g /~ (g +~ l)) = Fin 1).
    { rewrite (rl_div RL); [|assumption|assumption|rewrite T; exact Q]. rewrite G2, T. cbn [xdiv]. destruct (Reqb_spec r 0) as [->|Hne]; [now elim Q|]. cbn [rdx].
      replace (r / r) with 1 by (field; exact Hne). apply (rd_int RL 1); lia. }
    rewrite (rl_mul RL); [|apply (al_Z A)|apply (al_div A); assumption]. rewrite D, (rl_Z RL) by lia. cbn [xmul rdx]. rewrite Rmult_1_r. apply (rd_int RL 100); lia.
Qed.
Lemma out_fall g l : fb B 0 2 l -> okv g -> ext g = Fin 0 -> ext (rsi_out g l) = Fin 0.
Proof.
  intros (L1 & r & L2 & L3) Hg Eg. unfold rsi_out.
  assert (T : ext (g +~ l) = Fin r). { rewrite (rl_add RL) by assumption. rewrite L2, Eg. cbn [xadd rdx]. rewrite Rplus_0_l. now apply (rd_val RL l). }
  destruct (_ && _) eqn:E; cbn [negb]; [apply (rl_Z RL 0); lia|].
  assert (Ht : okv (g +~ l)) by (now apply (al_add A)). pose proof (@guard_ne _ Ht) as Q. rewrite E in Q. specialize (Q eq_refl). rewrite T in Q.
  assert (D : ext (g /~ (g +~ l)) = Fin 0).
  { rewrite (rl_div RL); [|assumption|assumption|rewrite T; exact Q]. rewrite Eg, T. cbn [xdiv]. destruct (Reqb_spec r 0) as [->|Hne]; [now elim Q|]. cbn [rdx].
    replace (0 / r) with 0 by (field; exact Hne). apply (rd_int RL 0); lia. }
  rewrite (rl_mul RL); [|apply (al_Z A)|apply (al_div A); assumption]. rewrite D, (rl_Z RL) by lia. cbn [xmul rdx]. rewrite Rmult_0_r. apply (rd_int RL 0); lia.
Qed.
Lemma rsiF_rise i : (forall j, (j <= i)%nat -> fb B (-1) 1 (f j)) -> rises i -> (p <= i)%nat ->
  ext (rsiF p f i) = Fin 100 \/ ((fst (rsiW p f (i - p)) +~ snd (rsiW p f (i - p)) <~ lit 1 100000000000000) = true /\ ext (rsiF p f i) = Fin 0).
Proof.
  intros Hf Hr Hi. unfold rsiF. destruct (Nat.ltb_spec i p); [lia|].
  destruct (@rsiW_fb (i - p)) as [W1 W2]; [intros; apply Hf; lia|].
  destruct (@rise_W (i - p)) as [R1 R2]; [intros j Hj; apply (Hf j); lia|intros j Hj; apply Hr; lia|]. now apply out_rise.
Qed.
Lemma rsiF_fall i : (forall j, (j <= i)%nat -> fb B (-1) 1 (f j)) -> falls i -> ext (rsiF p f i) = Fin 0.
Proof.
  intros Hf Hr. unfold rsiF. destruct (Nat.ltb_spec i p); [apply (rl_Z RL 0); lia|].
  destruct (@rsiW_fb (i - p)) as [W1 W2]; [intros; apply Hf; lia|].
  destruct (@fall_W (i - p)) as [R1 R2]; [intros j Hj; apply (Hf j); lia|intros j Hj; apply Hr; lia|]. now apply out_fall.
Qed.
End R.
