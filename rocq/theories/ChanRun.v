(** * ChanRun: one schedule for every pipeline. *)
From Verif Require Import Base Chan SpecChan ChanConf.
Set Implicit Arguments.
Open Scope nat_scope.

Section Run.
Variable V : Type.
Notation proc := (proc V). Notation cfg := (cfg V). Notation node := (node V). Notation chan := (chan V).

Ltac ll := unfold Chan.cfg, Chan.node in *; lia.
Definition frob (p : proc) : proc :=
  match p with
  | Done r => Done r | Crash _ => Crash V | Tau k => Tau k | Recv c k => Recv c k | Send c v k => Send c v k | Close c k => Close c k
  end.
Lemma frob_eq p : p = frob p. Proof. destruct p; reflexivity. Qed.

Lemma steps_app n m (a b c : cfg) : steps n a b -> steps m b c -> steps (n + m) a c.
Proof. intros H. induction H; cbn; [auto|]. intros. econstructor; eauto. Qed.
Lemma steps_1 (a b : cfg) : step a b -> steps 1 a b. Proof. intros. econstructor; [eassumption|constructor]. Qed.

(** ** entries of concatenations *)
Lemma at_app_r (f : node -> node) (pre s : cfg) i : at_ f (pre ++ s) (length pre + i) = pre ++ at_ f s i.
Proof. induction pre as [|x pre IH]; [reflexivity|]. cbn. now rewrite IH. Qed.
Lemma at_app_l (f : node -> node) (s post : cfg) i : i < length s -> at_ f (s ++ post) i = at_ f s i ++ post.
Proof. revert i; induction s as [|x s IH]; intros [|i] H; cbn in *; try lia; [reflexivity|]. rewrite IH by lia. reflexivity. Qed.
Lemma proc_app_r (pre s : cfg) i : proc_at (pre ++ s) (length pre + i) = proc_at s i.
Proof. unfold proc_at. rewrite nth_error_app2 by lia. now replace (length pre + i - length pre) with i by lia. Qed.
Lemma chan_app_r (pre s : cfg) i : chan_at (pre ++ s) (length pre + i) = chan_at s i.
Proof. unfold chan_at. rewrite nth_error_app2 by lia. now replace (length pre + i - length pre) with i by lia. Qed.
Lemma proc_app_l (s post : cfg) i p : proc_at s i = Some p -> proc_at (s ++ post) i = Some p.
Proof.
  unfold proc_at. intros H. assert (i < length s) by (apply nth_error_Some; destruct (nth_error s i); discriminate).
  now rewrite nth_error_app1.
Qed.
Lemma chan_app_l (s post : cfg) i p : chan_at s i = Some p -> chan_at (s ++ post) i = Some p.
Proof.
  unfold chan_at. intros H. assert (i < length s) by (apply nth_error_Some; destruct (nth_error s i); discriminate).
  now rewrite nth_error_app1.
Qed.
Lemma proc_lt (s : cfg) i p : proc_at s i = Some p -> i < length s.
Proof. unfold proc_at. intros H. apply nth_error_Some. destruct (nth_error s i); discriminate. Qed.
Lemma chan_lt (s : cfg) i p : chan_at s i = Some p -> i < length s.
Proof. unfold chan_at. intros H. apply nth_error_Some. destruct (nth_error s i); discriminate. Qed.

(** ** steps of a part of the program, whose first entry has number [b] *)
Definition fsteps (b : nat) (s t : cfg) : Prop :=
  forall pre post, length pre = b -> exists n, steps n (pre ++ s ++ post) (pre ++ t ++ post).
Lemma fs_refl b s : fsteps b s s. Proof. intros pre post _. exists 0. constructor. Qed.
Lemma fs_trans b s t u : fsteps b s t -> fsteps b t u -> fsteps b s u.
Proof.
  intros H1 H2 pre post Hp. destruct (H1 pre post Hp) as (n & Hn), (H2 pre post Hp) as (m & Hm).
  exists (n + m). eapply steps_app; eassumption.
Qed.
Lemma fs_eq b s t u : fsteps b s t -> t = u -> fsteps b s u. Proof. now intros H <-. Qed.
Lemma fs_frame b (P s t : cfg) : fsteps (b + length P) s t -> fsteps b (P ++ s) (P ++ t).
Proof.
  intros H pre post Hp. destruct (H (pre ++ P) post) as (n & Hn); [rewrite app_length; lia|].
  exists n. now rewrite <- !app_assoc in *.
Qed.
Lemma fs_frame_r b (s t Q : cfg) : fsteps b s t -> fsteps b (s ++ Q) (t ++ Q).
Proof. intros H pre post Hp. destruct (H pre (Q ++ post) Hp) as (n & Hn). exists n. now rewrite <- !app_assoc. Qed.
Lemma fs_tau b (s : cfg) j k : proc_at s j = Some (Tau k) -> fsteps b s (set_proc s j k).
Proof.
  intros H pre post <-. exists 1. apply steps_1. pose proof (proc_lt _ _ H).
  replace (pre ++ set_proc s j k ++ post) with (set_proc (pre ++ s ++ post) (length pre + j) k).
  2:{ unfold set_proc. now rewrite at_app_r, at_app_l. }
  apply s_tau. rewrite proc_app_r. now apply proc_app_l.
Qed.
Lemma fs_act b (s : cfg) j c p ch p' ch' : proc_at s j = Some p -> chan_at s c = Some ch -> act (b + c) p ch p' ch' ->
  fsteps b s (set_chan (set_proc s j p') c ch').
Proof.
  intros H1 H2 A pre post <-. exists 1. apply steps_1. pose proof (proc_lt _ _ H1). pose proof (chan_lt _ _ H2).
  replace (pre ++ set_chan (set_proc s j p') c ch' ++ post) with (set_chan (set_proc (pre ++ s ++ post) (length pre + j) p') (length pre + c) ch').
  2:{ unfold set_proc, set_chan. rewrite at_app_r, at_app_r, at_app_l by assumption. rewrite at_app_l by (now rewrite at_length). reflexivity. }
  eapply s_act; [rewrite proc_app_r; apply proc_app_l; exact H1|rewrite chan_app_r; apply chan_app_l; exact H2|exact A].
Qed.
Lemma fs_meet b (s : cfg) i j c v k h ch : proc_at s i = Some (Send (b + c) v k) -> proc_at s j = Some (Recv (b + c) h) ->
  chan_at s c = Some ch -> cap ch = 0 -> buf ch = [] -> closed ch = false -> fsteps b s (set_proc (set_proc s i k) j (h (Some v))).
Proof.
  intros H1 H2 H3 H4 H5 H6 pre post <-. exists 1. apply steps_1. pose proof (proc_lt _ _ H1). pose proof (proc_lt _ _ H2).
  replace (pre ++ set_proc (set_proc s i k) j (h (Some v)) ++ post) with
    (set_proc (set_proc (pre ++ s ++ post) (length pre + i) k) (length pre + j) (h (Some v))).
  2:{ unfold set_proc. rewrite at_app_r, at_app_r, at_app_l by assumption. rewrite at_app_l by (now rewrite at_length). reflexivity. }
  eapply s_meet; [rewrite proc_app_r; apply proc_app_l; exact H1|rewrite proc_app_r; apply proc_app_l; exact H2|
    rewrite chan_app_r; apply chan_app_l; exact H3| | |]; assumption.
Qed.
(** a value goes from a sender to a receiver through an empty channel of any capacity *)
Lemma fs_pass b (s : cfg) i j c v k h n : proc_at s i = Some (Send (b + c) v k) -> proc_at s j = Some (Recv (b + c) h) ->
  chan_at s c = Some (mk V n) -> fsteps b s (set_proc (set_proc s i k) j (h (Some v))).
Proof.
  intros H1 H2 H3. destruct n as [|n].
  { eapply fs_meet; try eassumption; reflexivity. }
  assert (i <> j) by congruence.
  eapply fs_trans; [eapply (fs_act s i c H1 H3); apply a_push; cbn; [reflexivity|lia]|].
  set (s1 := set_chan _ _ _).
  replace (set_proc (set_proc s i k) j (h (Some v))) with (set_chan (set_proc s1 j (h (Some v))) c (mk V (S n))).
  - eapply fs_act; unfold s1; cbn.
    + rewrite proc_set_chan, proc_set_proc. destruct (Nat.eqb_spec i j); [congruence|exact H2].
    + rewrite chan_set_chan, Nat.eqb_refl, chan_set_proc, H3. reflexivity.
    + apply (a_pop (b + c) h (mkChan (S n) [v] false) (q := [])). reflexivity.
  - unfold s1. apply cfg_ext; [now rewrite ?set_chan_length, ?set_proc_length, ?set_chan_length, ?set_proc_length| |]; intros x.
    + now rewrite proc_set_chan, !proc_set_proc, proc_set_chan, !proc_set_proc.
    + rewrite chan_set_chan, chan_set_proc, chan_set_chan, !chan_set_proc. destruct (Nat.eqb_spec c x) as [<-|]; [|reflexivity].
      now rewrite H3.
Qed.

(** ** a part of the program whose entry [o] is its output channel delivers a list *)
Definition ended (o : nat) (s : cfg) : Prop :=
  Forall (fun g => snd g = Done (@Quiet V)) s /\ exists n, chan_at s o = Some (mkChan n [] true).
Inductive offers (b o : nat) : cfg -> list V -> Prop :=
| of_nil s t : (forall T j k, proc_at T j = Some (Recv (b + o) k) -> fsteps b (s ++ T) (t ++ set_proc T j (k None))) ->
    length t = length s -> ended o t -> offers b o s []
| of_cons s t x l : (forall T j k, proc_at T j = Some (Recv (b + o) k) -> fsteps b (s ++ T) (t ++ set_proc T j (k (Some x)))) ->
    length t = length s -> offers b o t l -> offers b o s (x :: l).

Lemma of_pre b o s s' l : fsteps b s s' -> length s' = length s -> offers b o s' l -> offers b o s l.
Proof.
  intros H L O. destruct O as [s' t H1 L1 E|s' t x l H1 L1 O].
  - eapply of_nil with (t := t); [|congruence|exact E]. intros T j k Hk. eapply fs_trans; [apply fs_frame_r; exact H|]. now apply H1.
  - eapply of_cons with (t := t); [|congruence|exact O]. intros T j k Hk. eapply fs_trans; [apply fs_frame_r; exact H|]. now apply H1.
Qed.
Lemma set_proc_app (s T : cfg) j p : set_proc (s ++ T) (length s + j) p = s ++ set_proc T j p.
Proof. apply at_app_r. Qed.
Lemma set_proc_app0 (s T : cfg) p : set_proc (s ++ T) (length s) p = s ++ set_proc T 0 p.
Proof. rewrite <- set_proc_app. now rewrite Nat.add_0_r. Qed.
Lemma set_chan_app0 (s T : cfg) c : set_chan (s ++ T) (length s) c = s ++ set_chan T 0 c.
Proof. unfold set_chan. rewrite <- at_app_r. now rewrite Nat.add_0_r. Qed.
Lemma ended_none b o t T j k : ended o t -> proc_at T j = Some (Recv (b + o) k) -> fsteps b (t ++ T) (t ++ set_proc T j (k None)).
Proof.
  intros [_ (n & Hn)] Hj. eapply fs_eq.
  - eapply fs_act; [rewrite proc_app_r; exact Hj|apply chan_app_l; exact Hn|]. apply a_eof; reflexivity.
  - rewrite set_proc_app. apply cfg_ext; [now rewrite set_chan_length| |]; intros x.
    + now rewrite proc_set_chan.
    + rewrite chan_set_chan. destruct (Nat.eqb_spec o x) as [<-|]; [|reflexivity]. now rewrite (chan_app_l t _ o Hn).
Qed.

(** the parts: [s] delivers to the goroutine of the entry behind it *)
Lemma of_recv_some b o o' s x l ch k l' : offers b o s (x :: l) ->
  (forall t, offers b o t l -> length t = length s -> offers b o' (t ++ [(ch, k (Some x))]) l') ->
  offers b o' (s ++ [(ch, Recv (b + o) k)]) l'.
Proof.
  intros O H. inversion O as [|s0 t x0 l0 H1 L1 O1]; subst.
  eapply of_pre; [apply (H1 [(ch, Recv (b + o) k)] 0 k); reflexivity| |now apply H].
  cbn. now rewrite !app_length, L1.
Qed.
Lemma of_recv_none b o o' s ch k l' : offers b o s [] ->
  (forall t, ended o t -> length t = length s -> offers b o' (t ++ [(ch, k None)]) l') ->
  offers b o' (s ++ [(ch, Recv (b + o) k)]) l'.
Proof.
  intros O H. inversion O as [s0 t H1 L1 E|]; subst.
  eapply of_pre; [apply (H1 [(ch, Recv (b + o) k)] 0 k); reflexivity| |now apply H].
  cbn. now rewrite !app_length, L1.
Qed.
Lemma of_recv_ended b o o' s ch k l' : ended o s -> offers b o' (s ++ [(ch, k None)]) l' ->
  offers b o' (s ++ [(ch, Recv (b + o) k)]) l'.
Proof.
  intros E H. eapply of_pre; [apply (@ended_none b o s [(ch, Recv (b + o) k)] 0 k E); reflexivity| |exact H].
  cbn. now rewrite !app_length.
Qed.
Lemma chan_last (s : cfg) n : chan_at (s ++ [n]) (length s) = Some (fst n).
Proof. rewrite <- (Nat.add_0_r (length s)), chan_app_r. reflexivity. Qed.
Lemma proc_last (s : cfg) n : proc_at (s ++ [n]) (length s) = Some (snd n).
Proof. rewrite <- (Nat.add_0_r (length s)), proc_app_r. reflexivity. Qed.
Lemma of_send b o s n x k l : o = length s -> offers b o (s ++ [(mk V n, k)]) l ->
  offers b o (s ++ [(mk V n, Send (b + o) x k)]) (x :: l).
Proof.
  intros -> H. eapply of_cons with (t := s ++ [(mk V n, k)]); [|now rewrite !app_length|exact H].
  intros T j h Hj.
  eapply fs_eq.
  - apply (@fs_pass b _ (length s) (length (s ++ [(mk V n, k)]) + j) (length s) x k h n); [apply proc_app_l, proc_last| |apply chan_app_l, chan_last].
    replace (length (s ++ [(mk V n, k)])) with (length (s ++ [(mk V n, Send (b + length s) x k)])) by now rewrite !app_length.
    rewrite proc_app_r. exact Hj.
  - rewrite <- app_assoc, set_proc_app0. unfold set_proc at 2. cbn [at_ app fst].
    change ((mk V n, k) :: T) with ([(mk V n, k)] ++ T). rewrite app_assoc. apply set_proc_app.
Qed.
Lemma of_close b o s n : o = length s -> Forall (fun g => snd g = Done (@Quiet V)) s ->
  offers b o (s ++ [(mk V n, Close (b + o) (Done (@Quiet V)))]) [].
Proof.
  intros -> F. set (t := s ++ [(mkChan n [] true, Done (@Quiet V))]).
  assert (E : ended (length s) t).
  { split; [apply Forall_app; split; [exact F|constructor; [reflexivity|constructor]]|]. exists n. apply chan_last. }
  eapply of_nil with (t := t); [|unfold t; now rewrite !app_length|exact E].
  intros T j h Hj. eapply fs_trans; [|apply (@ended_none b (length s) t T j h E Hj)]. apply fs_frame_r.
  eapply fs_eq.
  - eapply fs_act; [apply proc_last|apply chan_last|]. cbn. apply a_close. reflexivity.
  - unfold t. rewrite set_proc_app0, set_chan_app0. reflexivity.
Qed.
Lemma ended_done o s : ended o s -> Forall (fun g => snd g = Done (@Quiet V)) s. Proof. now intros [H _]. Qed.

(** ** the goroutines *)
Lemma run_sendAll b o s n k l xs : o = length s -> offers b o (s ++ [(mk V n, k)]) l ->
  offers b o (s ++ [(mk V n, sendAll (b + o) xs k)]) (xs ++ l).
Proof. intros Ho H. induction xs as [|x xs IH]; [exact H|]. cbn. now apply of_send. Qed.
Lemma run_source b n xs : offers b 0 [(mk V n, sourceP xs (b + 0))] xs.
Proof.
  rewrite <- (app_nil_r xs) at 2. apply (@run_sendAll b 0 [] n _ [] xs eq_refl).
  apply (@of_close b 0 [] n eq_refl). constructor.
Qed.
Lemma run_apply f b o n l : forall s, offers b o s l ->
  offers b (length s) (s ++ [(mk V n, applyP f (b + o) (b + length s))]) (map f l).
Proof.
  induction l as [|x l IH]; intros s O; rewrite (frob_eq (applyP _ _ _)); cbn [frob applyP].
  - eapply of_recv_none; [exact O|]. intros t E L. rewrite <- L. now apply of_close, (ended_done E).
  - eapply of_recv_some; [exact O|]. intros t Ot L. cbn [map]. rewrite <- L. apply of_send; [reflexivity|]. now apply IH.
Qed.
Lemma run_pipe b o n l : forall s, offers b o s l ->
  offers b (length s) (s ++ [(mk V n, pipeP V (b + o) (b + length s))]) l.
Proof.
  induction l as [|x l IH]; intros s O; rewrite (frob_eq (pipeP _ _ _)); cbn [frob pipeP].
  - eapply of_recv_none; [exact O|]. intros t E L. rewrite <- L. now apply of_close, (ended_done E).
  - eapply of_recv_some; [exact O|]. intros t Ot L. rewrite <- L. apply of_send; [reflexivity|]. now apply IH.
Qed.
Lemma run_shift b o n count fill l s : offers b o s l ->
  offers b (length s) (s ++ [(mk V n, shiftP count fill (b + o) (b + length s))]) (repeat fill (Z.to_nat count) ++ l).
Proof. intros O. apply run_sendAll; [reflexivity|]. now apply run_pipe. Qed.
Lemma run_pipe_ended b o n s : ended o s -> offers b (length s) (s ++ [(mk V n, pipeP V (b + o) (b + length s))]) [].
Proof.
  intros E. rewrite (frob_eq (pipeP _ _ _)); cbn [frob pipeP]. apply of_recv_ended; [exact E|]. now apply of_close, (ended_done E).
Qed.
Lemma run_skip_ended b o n m s : ended o s ->
  offers b (length s) (s ++ [(mk V n, skipN m (b + o) (pipeP V (b + o) (b + length s)))]) [].
Proof.
  intros E. induction m as [|m IH]; cbn [skipN]; [now apply run_pipe_ended|]. now apply of_recv_ended.
Qed.
Lemma run_skip b o n m : forall l s, offers b o s l ->
  offers b (length s) (s ++ [(mk V n, skipN m (b + o) (pipeP V (b + o) (b + length s)))]) (skipn m l).
Proof.
  induction m as [|m IH]; intros l s O; cbn [skipN skipn]; [now apply run_pipe|]. destruct l as [|x l].
  - eapply of_recv_none; [exact O|]. intros t E L. rewrite <- L. now apply run_skip_ended.
  - eapply of_recv_some; [exact O|]. intros t Ot L. rewrite <- L. now apply IH.
Qed.

(** Operate: [s1] and [s2] deliver to the goroutine behind them *)
Section Op.
Variables (S : Type) (op : S -> V -> V -> S * V).
Fixpoint outs (st : S) (xs ys : list V) : list V :=
  match xs, ys with
  | x :: xs', y :: ys' => let '(st', r) := op st x y in r :: outs st' xs' ys'
  | _, _ => []
  end.
Variables (b o1 o2 n : nat).
Lemma recv1_some o' s1 s2 x l ch k l' : offers b o1 s1 (x :: l) ->
  (forall t, offers b o1 t l -> length t = length s1 -> offers b o' (t ++ s2 ++ [(ch, k (Some x))]) l') ->
  offers b o' (s1 ++ s2 ++ [(ch, Recv (b + o1) k)]) l'.
Proof.
  intros O H. inversion O as [|s0 t x0 l0 H1 L1 O1]; subst.
  eapply of_pre; [apply (H1 (s2 ++ [(ch, Recv (b + o1) k)]) (length s2) k); apply proc_last| |].
  - rewrite !app_length, set_proc_length, app_length, L1. reflexivity.
  - rewrite set_proc_app0. now apply H.
Qed.
Lemma recv1_none o' s1 s2 ch k l' : offers b o1 s1 [] ->
  (forall t, ended o1 t -> length t = length s1 -> offers b o' (t ++ s2 ++ [(ch, k None)]) l') ->
  offers b o' (s1 ++ s2 ++ [(ch, Recv (b + o1) k)]) l'.
Proof.
  intros O H. inversion O as [s0 t H1 L1 E|]; subst.
  eapply of_pre; [apply (H1 (s2 ++ [(ch, Recv (b + o1) k)]) (length s2) k); apply proc_last| |].
  - rewrite !app_length, set_proc_length, app_length, L1. reflexivity.
  - rewrite set_proc_app0. now apply H.
Qed.
Lemma recv2_some o' s1 s2 x l ch k l' : offers (b + length s1) o2 s2 (x :: l) ->
  (forall t, offers (b + length s1) o2 t l -> length t = length s2 -> offers b o' (s1 ++ t ++ [(ch, k (Some x))]) l') ->
  offers b o' (s1 ++ s2 ++ [(ch, Recv (b + length s1 + o2) k)]) l'.
Proof.
  intros O H. inversion O as [|s0 t x0 l0 H1 L1 O1]; subst.
  eapply of_pre; [apply fs_frame; apply (H1 [(ch, Recv (b + length s1 + o2) k)] 0 k); reflexivity| |now apply H].
  cbn. rewrite !app_length, L1. reflexivity.
Qed.
Lemma recv2_none o' s1 s2 ch k l' : offers (b + length s1) o2 s2 [] ->
  (forall t, ended o2 t -> length t = length s2 -> offers b o' (s1 ++ t ++ [(ch, k None)]) l') ->
  offers b o' (s1 ++ s2 ++ [(ch, Recv (b + length s1 + o2) k)]) l'.
Proof.
  intros O H. inversion O as [s0 t H1 L1 E|]; subst.
  eapply of_pre; [apply fs_frame; apply (H1 [(ch, Recv (b + length s1 + o2) k)] 0 k); reflexivity| |now apply H].
  cbn. rewrite !app_length, L1. reflexivity.
Qed.
Lemma end2 s1 s2 : Forall (fun g => snd g = Done (@Quiet V)) s1 -> Forall (fun g => snd g = Done (@Quiet V)) s2 ->
  forall o, o = length s1 + length s2 -> offers b o (s1 ++ s2 ++ [(mk V n, Close (b + o) (Done (@Quiet V)))]) [].
Proof. intros H1 H2 o ->. rewrite app_assoc. apply of_close; [now rewrite app_length|]. apply Forall_app. now split. Qed.
Lemma drain1 l : forall s1 s2 o, offers b o1 s1 l -> ended o2 s2 -> o = length s1 + length s2 ->
  offers b o (s1 ++ s2 ++ [(mk V n, drainP (b + o1) (Close (b + o) (Done (@Quiet V))))]) [].
Proof.
  induction l as [|x l IH]; intros s1 s2 o O E Ho; rewrite (frob_eq (drainP _ _)); cbn [frob drainP].
  - eapply recv1_none; [exact O|]. intros t Et L. apply end2; [apply (ended_done Et)|apply (ended_done E)|ll].
  - eapply recv1_some; [exact O|]. intros t Ot L. apply IH; [exact Ot|exact E|ll].
Qed.
Lemma drain2 l : forall s1 s2 o, ended o1 s1 -> offers (b + length s1) o2 s2 l -> o = length s1 + length s2 ->
  offers b o (s1 ++ s2 ++ [(mk V n, drainP (b + length s1 + o2) (Close (b + o) (Done (@Quiet V))))]) [].
Proof.
  induction l as [|x l IH]; intros s1 s2 o E O Ho; rewrite (frob_eq (drainP _ _)); cbn [frob drainP].
  - eapply recv2_none; [exact O|]. intros t Et L. apply end2; [apply (ended_done E)|apply (ended_done Et)|ll].
  - eapply recv2_some; [exact O|]. intros t Ot L. apply IH; [exact E|exact Ot|ll].
Qed.
Lemma run_operate xs : forall ys st s1 s2 o, offers b o1 s1 xs -> offers (b + length s1) o2 s2 ys -> o = length s1 + length s2 ->
  offers b o (s1 ++ s2 ++ [(mk V n, operateP op st (b + o1) (b + length s1 + o2) (b + o))]) (outs st xs ys).
Proof.
  induction xs as [|x xs IH]; intros ys st s1 s2 o O1 O2 Ho; rewrite (frob_eq (operateP _ _ _ _ _)); cbn [frob operateP].
  - eapply recv1_none; [exact O1|]. intros t E L. cbn [outs]. rewrite <- L. eapply drain2; [exact E|rewrite L; exact O2|ll].
  - eapply recv1_some; [exact O1|]. intros t Ot L. cbn beta iota. destruct ys as [|y ys].
    + rewrite <- L. eapply recv2_none; [rewrite L; exact O2|]. intros t2 E2 L2. cbn [outs]. eapply drain1; [exact Ot|exact E2|ll].
    + rewrite <- L. eapply recv2_some; [rewrite L; exact O2|]. intros t2 Ot2 L2. cbn beta iota. cbn [outs]. destruct (op st x y) as [st' r].
      rewrite app_assoc. apply of_send; [rewrite app_length; lia|]. rewrite <- app_assoc. apply IH; [exact Ot|exact Ot2|ll].
Qed.
End Op.
End Run.
