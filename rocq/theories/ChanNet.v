(** * ChanNet: SmaT's network, whole pipelines, and who owns which channel. *)
From Verif Require Import Base Chan SpecChan ChanConf ChanRun.
Set Implicit Arguments.
Open Scope nat_scope.

Section Net.
Variable V : Type.
Notation proc := (proc V). Notation cfg := (cfg V). Notation node := (node V). Notation chan := (chan V).
Ltac ll := unfold Chan.cfg, Chan.node in *; lia.

Lemma go_act d (T T' : cfg) j c p ch p' ch' : proc_at T j = Some p -> chan_at T c = Some ch -> act (d + c) p ch p' ch' ->
  set_chan (set_proc T j p') c ch' = T' -> fsteps d T T'.
Proof. intros H1 H2 H3 <-. eapply fs_act; eassumption. Qed.
Lemma go_pass d (T T' : cfg) i j c v k h n : proc_at T i = Some (Send (d + c) v k) -> proc_at T j = Some (Recv (d + c) h) ->
  chan_at T c = Some (mk V n) -> set_proc (set_proc T i k) j (h (Some v)) = T' -> fsteps d T T'.
Proof. intros H1 H2 H3 <-. eapply fs_pass; eassumption. Qed.

Section Sma.
Variables (zero : V) (add sub : V -> V -> V) (scale : V -> V).
Variables (d c cS : nat).
Let dup := dupP V (d - 1) [d + 0; d + 1].
Let shift := pipeP V (d + 1) (d + 2).
Let oper st := operateP (smaOp add sub) st (d + 0) (d + 2) (d + 3).
Let appl := applyP scale (d + 3) (d + 4).
Definition T5 (q : list V) (pd ps po pa : proc) : cfg :=
  [(mk V c, pd); (mk V c, Done (@Quiet V)); (mkChan cS q false, ps); (mk V 0, po); (mk V 0, pa)].

Lemma sma_fill n q : length q + n <= cS ->
  fsteps d (T5 q dup (sendAll (d + 2) (repeat zero n) shift) (oper zero) appl) (T5 (q ++ repeat zero n) dup shift (oper zero) appl).
Proof.
  revert q; induction n as [|n IH]; intros q H; cbn [repeat sendAll]; [rewrite app_nil_r; apply fs_refl|].
  eapply fs_trans; [eapply (@go_act d _ _ 2 2); [reflexivity|reflexivity|apply a_push; cbn; [reflexivity|lia]|reflexivity]|].
  cbn. specialize (IH (q ++ [zero])). rewrite <- app_assoc in IH. apply IH. rewrite app_length. cbn. lia.
Qed.

(** one round: the value [x] has just been received by Duplicate *)
Lemma sma_round q x st : length q <= cS -> exists y q', q ++ [x] = y :: q' /\ length q' <= cS /\
  fsteps d (T5 q (Send (d + 0) x (dupSend (d - 1) [d + 0; d + 1] [d + 1] (Some x))) shift (oper st) appl)
           (T5 q' dup shift (oper (sub (add st x) y)) (Send (d + 4) (scale (sub (add st x) y)) appl)).
Proof.
  intros Hq.
  (* cs[0] to Operate, cs[1] to Shift *)
  assert (H : fsteps d (T5 q (Send (d + 0) x (dupSend (d - 1) [d + 0; d + 1] [d + 1] (Some x))) shift (oper st) appl)
     (T5 q dup (Send (d + 2) x shift) (Recv (d + 2) (fun bn => match bn with
        | None => drainP (d + 0) (Close (d + 3) (Done (@Quiet V)))
        | Some bn => Send (d + 3) (sub (add st x) bn) (oper (sub (add st x) bn)) end)) appl)).
  { unfold oper at 1. rewrite (frob_eq (operateP _ _ _ _ _)); cbn [frob operateP].
    eapply fs_trans; [eapply (@go_pass d _ _ 0 3 0); reflexivity|]. cbn.
    rewrite (frob_eq (dupSend (d - 1) [d + 0; d + 1] [d + 1] (Some x))); cbn [frob dupSend].
    unfold shift at 1. rewrite (frob_eq (pipeP _ _ _)); cbn [frob pipeP].
    eapply fs_trans; [eapply (@go_pass d _ _ 0 2 1); reflexivity|]. cbn.
    rewrite (frob_eq (dupSend (d - 1) [d + 0; d + 1] [] (Some x))); cbn [frob dupSend].
    unfold dup, dupP, T5. rewrite (frob_eq (dupSend (d - 1) [d + 0; d + 1] [] None)); cbn [frob dupSend]. apply fs_refl. }
  destruct q as [|y q].
  - exists x, []. split; [reflexivity|]. split; [cbn; lia|]. eapply fs_trans; [exact H|].
    eapply fs_trans; [eapply (@go_pass d _ _ 2 3 2); reflexivity|]. cbn.
    unfold appl at 1. rewrite (frob_eq (applyP _ _ _)); cbn [frob applyP].
    eapply fs_trans; [eapply (@go_pass d _ _ 3 4 3); reflexivity|]. apply fs_refl.
  - exists y, (q ++ [x]). cbn in Hq. split; [reflexivity|]. split; [rewrite app_length; cbn; lia|]. eapply fs_trans; [exact H|].
    eapply fs_trans; [eapply (@go_act d _ _ 3 2); [reflexivity|reflexivity|apply a_pop; reflexivity|reflexivity]|]. cbn.
    eapply fs_trans; [eapply (@go_act d _ _ 2 2); [reflexivity|reflexivity|apply a_push; cbn; [reflexivity|lia]|reflexivity]|]. cbn.
    unfold appl at 1. rewrite (frob_eq (applyP _ _ _)); cbn [frob applyP].
    eapply fs_trans; [eapply (@go_pass d _ _ 3 4 3); reflexivity|]. apply fs_refl.
Qed.

(** the end: Duplicate has seen its input closed *)
Definition E5 (ca cb cs : chan) (co : chan) (po pa : proc) : cfg :=
  [(ca, Done (@Quiet V)); (cb, Done (@Quiet V)); (cs, Done (@Quiet V)); (co, po); (mk V 0, pa)].
Lemma sma_drain ca cb q : fsteps d (E5 ca cb (mkChan cS q true) (mk V 0) (drainP (d + 2) (Close (d + 3) (Done (@Quiet V)))) appl)
  (E5 ca cb (mkChan cS [] true) (mk V 0) (Close (d + 3) (Done (@Quiet V))) appl).
Proof.
  induction q as [|y q IH]; rewrite (frob_eq (drainP _ _)); cbn [frob drainP].
  - eapply (@go_act d _ _ 3 2); [reflexivity|reflexivity|apply a_eof; reflexivity|reflexivity].
  - eapply fs_trans; [eapply (@go_act d _ _ 3 2); [reflexivity|reflexivity|apply a_pop; reflexivity|reflexivity]|]. exact IH.
Qed.
Lemma sma_end q st : fsteps d (T5 q (closeAll V (rev [d + 0; d + 1])) shift (oper st) appl)
  (E5 (mkChan c [] true) (mkChan c [] true) (mkChan cS [] true) (mkChan 0 [] true) (Done (@Quiet V)) (Close (d + 4) (Done (@Quiet V)))).
Proof.
  cbn [rev app closeAll].
  eapply fs_trans; [eapply (@go_act d _ _ 0 1); [reflexivity|reflexivity|apply a_close; reflexivity|reflexivity]|]. cbn.
  eapply fs_trans; [eapply (@go_act d _ _ 0 0); [reflexivity|reflexivity|apply a_close; reflexivity|reflexivity]|]. cbn.
  unfold shift. rewrite (frob_eq (pipeP _ _ _)); cbn [frob pipeP].
  eapply fs_trans; [eapply (@go_act d _ _ 2 1); [reflexivity|reflexivity|apply a_eof; reflexivity|reflexivity]|]. cbn.
  eapply fs_trans; [eapply (@go_act d _ _ 2 2); [reflexivity|reflexivity|apply a_close; reflexivity|reflexivity]|]. cbn.
  unfold oper. rewrite (frob_eq (operateP _ _ _ _ _)); cbn [frob operateP].
  eapply fs_trans; [eapply (@go_act d _ _ 3 0); [reflexivity|reflexivity|apply a_eof; reflexivity|reflexivity]|]. cbn.
  eapply fs_trans; [apply sma_drain|].
  eapply fs_trans; [eapply (@go_act d _ _ 3 3); [reflexivity|reflexivity|apply a_close; reflexivity|reflexivity]|]. cbn.
  unfold appl. rewrite (frob_eq (applyP _ _ _)); cbn [frob applyP].
  eapply fs_trans; [eapply (@go_act d _ _ 4 3); [reflexivity|reflexivity|apply a_eof; reflexivity|reflexivity]|]. apply fs_refl.
Qed.

Lemma run_sma b o l : forall s q st, offers b o s l -> d = b + length s -> d - 1 = b + o -> length q <= cS ->
  offers b (length s + 4) (s ++ T5 q dup shift (oper st) appl) (map scale (running add sub st l (q ++ l))).
Proof.
  induction l as [|x l IH]; intros s q st O; inversion O as [s0 t H1 L1 E|s0 t x0 l0 H1 L1 O1]; subst; intros Hd Ho Hq; rewrite <- Ho in H1.
  - replace (running add sub st [] (q ++ [])) with (@nil V) by (destruct (q ++ []); reflexivity). cbn [map].
    eapply of_pre; [eapply fs_trans;
      [eapply (H1 (T5 q dup shift (oper st) appl) 0); unfold T5, dup, dupP; cbn; rewrite (frob_eq (dupSend _ _ _ _)); cbn [frob dupSend]; reflexivity|
       apply fs_frame; rewrite L1, <- Hd; apply sma_end]| |].
    + rewrite !app_length, L1. reflexivity.
    + replace (t ++ E5 (mkChan c [] true) (mkChan c [] true) (mkChan cS [] true) (mkChan 0 [] true) (Done (@Quiet V)) (Close (d + 4) (Done (@Quiet V))))
        with ((t ++ [(mkChan c [] true, Done (@Quiet V)); (mkChan c [] true, Done (@Quiet V)); (mkChan cS [] true, Done (@Quiet V)); (mkChan 0 [] true, Done (@Quiet V))])
              ++ [(mk V 0, Close (b + (length s + 4)) (Done (@Quiet V)))]).
      2:{ rewrite <- app_assoc. unfold E5. cbn [app]. rewrite Hd. do 6 f_equal. f_equal. f_equal. lia. }
      apply of_close; [rewrite app_length; cbn; ll|]. apply Forall_app. split; [apply (ended_done E)|repeat constructor].
  - destruct (@sma_round q x st Hq) as (y & q' & Eq & Hq' & R).
    replace (q ++ x :: l) with (y :: q' ++ l).
    2:{ change (x :: l) with ([x] ++ l). rewrite app_assoc, Eq. reflexivity. }
    cbn [running map].
    eapply of_pre; [eapply fs_trans;
      [eapply (H1 (T5 q dup shift (oper st) appl) 0); unfold T5, dup, dupP; cbn; rewrite (frob_eq (dupSend _ _ _ _)); cbn [frob dupSend]; reflexivity|
       apply fs_frame; rewrite L1, <- Hd; exact R]| |].
    + rewrite !app_length, L1. reflexivity.
    + assert (A : forall p, t ++ T5 q' dup shift (oper (sub (add st x) y)) p =
        (t ++ [(mk V c, dup); (mk V c, Done (@Quiet V)); (mkChan cS q' false, shift); (mk V 0, oper (sub (add st x) y))]) ++ [(mk V 0, p)])
        by (intros p; rewrite <- app_assoc; reflexivity).
      rewrite A. replace (d + 4) with (b + (length s + 4)) by lia. apply of_send; [rewrite app_length; cbn; ll|]. rewrite <- A.
      rewrite <- L1. apply IH; [exact O1|ll|exact Ho|exact Hq'].
Qed.
End Sma.

(** ** whole pipelines *)
Lemma build_length b p : length (build (V := V) b p) = psize p.
Proof.
  revert b; induction p as [n xs|f p IH|op p IHp q IHq|count fill p IH|count p IH|n p IH|z a s sc per p IH]; intros b; cbn [build psize];
    rewrite ?app_length, ?IH, ?IHp, ?IHq; cbn [length]; lia.
Qed.
Lemma psize_pos (p : pipe V) : 1 <= psize p.
Proof. induction p; cbn; lia. Qed.
Lemma outs_zip (op : V -> V -> V) xs : forall ys, outs (fun (u : unit) x y => (u, op x y)) tt xs ys = zip_with op xs ys.
Proof. induction xs as [|x xs IH]; intros [|y ys]; cbn; try reflexivity. now rewrite IH. Qed.
Lemma pcap_nonneg (p : pipe V) : buildable p -> (0 <= pcap p)%Z.
Proof.
  induction p; cbn [buildable pcap]; intros H; try lia; auto.
Qed.

Lemma run_build p : forall b, buildable p -> offers b (psize p - 1) (build b p) (meaning (V := V) p).
Proof.
  induction p as [n xs|f p IH|op p IHp q IHq|count fill p IH|count p IH|n p IH|z a s sc per p IH]; intros b B; cbn [build meaning psize buildable] in *;
    try (pose proof (psize_pos p) as Pp).
  - replace (b + 1 - 1) with (b + 0) by lia. apply run_source.
  - specialize (IH b B). replace (b + S (psize p) - 1 - 1) with (b + (psize p - 1)) by lia. replace (b + S (psize p) - 1) with (b + length (build b p)) by (rewrite build_length; lia).
    replace (S (psize p) - 1) with (length (build b p)) by (rewrite build_length; lia). now apply run_apply.
  - pose proof (psize_pos q) as Pq. destruct B as [B1 B2]. specialize (IHp b B1). specialize (IHq (b + psize p) B2). rewrite <- (outs_zip op).
    replace (b + S (psize p + psize q) - 1 - 1) with (b + length (build b p) + (psize q - 1)) by (rewrite build_length; lia).
    replace (b + psize p - 1) with (b + (psize p - 1)) by lia.
    replace (b + S (psize p + psize q) - 1) with (b + (S (psize p + psize q) - 1)) by lia.
    apply run_operate; [exact IHp|rewrite build_length; exact IHq|rewrite !build_length; lia].
  - destruct B as [B1 B2]. specialize (IH b B1). replace (b + S (psize p) - 1 - 1) with (b + (psize p - 1)) by lia. replace (b + S (psize p) - 1) with (b + length (build b p)) by (rewrite build_length; lia).
    replace (S (psize p) - 1) with (length (build b p)) by (rewrite build_length; lia). now apply run_shift.
  - specialize (IH b B). replace (b + S (psize p) - 1 - 1) with (b + (psize p - 1)) by lia. replace (b + S (psize p) - 1) with (b + length (build b p)) by (rewrite build_length; lia).
    replace (S (psize p) - 1) with (length (build b p)) by (rewrite build_length; lia). now apply run_skip.
  - specialize (IH b B). replace (b + S (psize p) - 1 - 1) with (b + (psize p - 1)) by lia. replace (b + S (psize p) - 1) with (b + length (build b p)) by (rewrite build_length; lia).
    replace (S (psize p) - 1) with (length (build b p)) by (rewrite build_length; lia). now apply run_pipe.
  - destruct B as [B1 B2]. specialize (IH b B1). pose proof (pcap_nonneg p B1).
    set (d := b + psize p). replace (psize p + 5 - 1) with (length (build b p) + 4) by (rewrite build_length; lia).
    assert (Ed : d + 0 = d) by lia.
    match goal with |- offers _ _ (_ ++ ?T) _ => replace T with
      (T5 (Z.to_nat (pcap p)) (Z.to_nat (pcap p + per)) [] (dupP V (d - 1) [d + 0; d + 1]) (sendAll (d + 2) (repeat z (Z.to_nat per)) (pipeP V (d + 1) (d + 2)))
        (operateP (smaOp a s) z (d + 0) (d + 2) (d + 3)) (applyP sc (d + 3) (d + 4))) by (unfold T5; rewrite Ed; reflexivity) end.
    eapply of_pre; [apply fs_frame; rewrite build_length; apply sma_fill; cbn; lia|now rewrite !app_length|].
    apply run_sma with (o := psize p - 1); [exact IH|unfold d; now rewrite build_length|unfold d; lia|]. cbn [app]. rewrite repeat_length. lia.
Qed.

(** Chan2Slice *)
Lemma run_collect b o (l : list V) : forall (s : cfg) acc ch, offers b o s l -> exists t, ended o t /\ length t = length s /\
  fsteps b (s ++ [(ch, collectP acc (b + o))]) (t ++ [(ch, Done (Slice (acc ++ l)))]).
Proof.
  induction l as [|x l IH]; intros s acc ch O; rewrite (frob_eq (collectP _ _)); cbn [frob collectP];
    inversion O as [s0 t H1 L1 E|s0 t x0 l0 H1 L1 O1]; subst.
  - exists t. split; [exact E|]. split; [exact L1|]. rewrite app_nil_r.
    apply (H1 [(ch, Recv (b + o) _)] 0 (fun n => match n with Some n0 => collectP (acc ++ [n0]) (b + o) | None => Done (Slice acc) end)). reflexivity.
  - destruct (IH t (acc ++ [x]) ch O1) as (t' & E' & L' & R). exists t'. split; [exact E'|]. split; [ll|].
    rewrite <- app_assoc in R. eapply fs_trans; [|exact R].
    apply (H1 [(ch, Recv (b + o) _)] 0 (fun n => match n with Some n0 => collectP (acc ++ [n0]) (b + o) | None => Done (Slice acc) end)). reflexivity.
Qed.

(** ** every channel has one reader and one writer *)
Lemma uses_mono (R W R' W' : nat -> Prop) : (forall c, R c -> R' c) -> (forall c, W c -> W' c) ->
  forall p : proc, uses R W p -> uses R' W' p.
Proof.
  intros HR HW. cofix CH. intros p U. destruct U; constructor; auto.
Qed.
Section Uses.
Variables R W : nat -> Prop.
Lemma uses_sendAll o xs (k : proc) : W o -> uses R W k -> uses R W (sendAll o xs k).
Proof. intros Ho Hk. induction xs; cbn; [exact Hk|]. now constructor. Qed.
Lemma uses_source o (xs : list V) : W o -> uses R W (sourceP xs o).
Proof. intros Ho. apply uses_sendAll; [exact Ho|]. constructor; [exact Ho|constructor]. Qed.
Lemma uses_apply f i o : R i -> W o -> uses R W (applyP (V := V) f i o).
Proof.
  intros Hi Ho. cofix CH. rewrite (frob_eq (applyP f i o)). cbn. constructor; [exact Hi|]. intros [v|].
  - constructor; [exact Ho|exact CH].
  - constructor; [exact Ho|constructor].
Qed.
Lemma uses_pipe i o : R i -> W o -> uses R W (pipeP V i o).
Proof.
  intros Hi Ho. cofix CH. rewrite (frob_eq (pipeP V i o)). cbn. constructor; [exact Hi|]. intros [v|].
  - constructor; [exact Ho|exact CH].
  - constructor; [exact Ho|constructor].
Qed.
Lemma uses_shift count (fill : V) i o : R i -> W o -> uses R W (shiftP count fill i o).
Proof. intros Hi Ho. apply uses_sendAll; [exact Ho|]. now apply uses_pipe. Qed.
Lemma uses_skip count i o : R i -> W o -> uses R W (skipP V count i o).
Proof. intros Hi Ho. unfold skipP. induction (Z.to_nat count); cbn; [now apply uses_pipe|]. constructor; auto. Qed.
Lemma uses_drain i (k : proc) : R i -> uses R W k -> uses R W (drainP i k).
Proof.
  intros Hi Hk. cofix CH. rewrite (frob_eq (drainP i k)). cbn. constructor; [exact Hi|]. intros [v|]; [exact CH|exact Hk].
Qed.
Lemma uses_operate S (op : S -> V -> V -> S * V) a b o : R a -> R b -> W o -> forall st, uses R W (operateP op st a b o).
Proof.
  intros Ha Hb Ho. cofix CH. intros st. rewrite (frob_eq (operateP op st a b o)). cbn. constructor; [exact Ha|]. intros [v|].
  - constructor; [exact Hb|]. intros [w|].
    + destruct (op st v w) as [st' r]. constructor; [exact Ho|apply CH].
    + apply uses_drain; [exact Ha|]. constructor; [exact Ho|constructor].
  - apply uses_drain; [exact Hb|]. constructor; [exact Ho|constructor].
Qed.
Lemma uses_closeAll os : Forall W os -> uses R W (closeAll V os).
Proof. intros H. induction H; cbn; constructor; auto. Qed.
Lemma uses_dup i os : R i -> Forall W os -> forall todo v, Forall W todo -> uses R W (dupSend i os todo (v : option V)).
Proof.
  intros Hi Ho. assert (HC : uses R W (closeAll V (rev os))) by (apply uses_closeAll; now apply Forall_rev).
  destruct os as [|o0 r0].
  - cofix CH. intros todo v Ht. rewrite (frob_eq (dupSend i [] todo v)). destruct todo as [|o r]; [|destruct v as [v|]]; cbn.
    + constructor; [exact Hi|]. intros [w|]; [constructor; apply CH; constructor|exact HC].
    + constructor; [exact (Forall_inv Ht)|]. apply CH. exact (Forall_inv_tail Ht).
    + constructor; [exact Hi|]. intros [w|]; [constructor; apply CH; constructor|exact HC].
  - pose proof (Forall_inv Ho) as H0. pose proof (Forall_inv_tail Ho) as Hr0. clear Ho.
    cofix CH. intros todo v Ht. rewrite (frob_eq (dupSend i (o0 :: r0) todo v)). destruct todo as [|o r]; [|destruct v as [v|]]; cbn.
    + constructor; [exact Hi|]. intros [w|]; [constructor; [exact H0|apply CH; exact Hr0]|exact HC].
    + constructor; [exact (Forall_inv Ht)|]. apply CH. exact (Forall_inv_tail Ht).
    + constructor; [exact Hi|]. intros [w|]; [constructor; [exact H0|apply CH; exact Hr0]|exact HC].
Qed.
Lemma uses_collect i : R i -> forall acc, uses R W (collectP (V := V) acc i).
Proof.
  intros Hi. cofix CH. intros acc. rewrite (frob_eq (collectP acc i)). cbn. constructor; [exact Hi|]. intros [v|]; [apply CH|constructor].
Qed.
Lemma uses_check eqb all : Forall (fun ae => R (fst ae) /\ R (snd ae)) all -> forall rest, Forall (fun ae => R (fst ae) /\ R (snd ae)) rest ->
  uses R W (checkP (V := V) eqb all rest).
Proof.
  intros Ha. cofix CH. intros rest Hr. rewrite (frob_eq (checkP eqb all rest)). destruct rest as [|[a e] r]; cbn.
  - constructor. now apply CH.
  - assert (H : R a /\ R e) by (inversion Hr; assumption). constructor; [apply H|]. intros x. constructor; [apply H|]. intros y.
    destruct x as [u|], y as [w|]; try constructor. destruct (eqb u w); constructor. apply CH. now inversion Hr.
Qed.
End Uses.

(** a part of the program with first entry [b] and [n] entries reads only its own channels but the last *)
Definition fenced (rd wr : nat -> nat) (b n : nat) (s : cfg) : Prop :=
  forall i p, proc_at s i = Some p ->
    uses (fun c => rd c = b + i /\ b <= c < b + n - 1) (fun c => wr c = b + i /\ b <= c < b + n) p.
Lemma proc_app_cases (s t : cfg) i p : proc_at (s ++ t) i = Some p ->
  proc_at s i = Some p \/ (length s <= i /\ proc_at t (i - length s) = Some p).
Proof.
  unfold proc_at. intros H. destruct (Nat.lt_ge_cases i (length s)) as [L|L].
  - left. now rewrite nth_error_app1 in H.
  - right. split; [exact L|]. now rewrite nth_error_app2 in H.
Qed.
(** a goroutine behind a fenced part, reading its last channel *)
Lemma fence_one rd wr b n s ch (q : proc) : fenced rd wr b n s -> length s = n -> 1 <= n ->
  (forall R W : nat -> Prop, R (b + n - 1) -> W (b + n) -> uses R W q) ->
  exists rd' wr', fenced rd' wr' b (S n) (s ++ [(ch, q)]).
Proof.
  intros F L Hn Hq. exists (fun c => if Nat.eqb c (b + n - 1) then b + n else rd c), (fun c => if Nat.eqb c (b + n) then b + n else wr c).
  intros i p Hp. destruct (proc_app_cases _ _ _ Hp) as [H|[L2 H]].
  - eapply uses_mono; [| |exact (F _ _ H)]; cbv beta; intros c [H1 H2].
    + destruct (Nat.eqb_spec c (b + n - 1)); lia.
    + destruct (Nat.eqb_spec c (b + n)); lia.
  - destruct (i - length s) as [|m] eqn:Ei; [|destruct m; discriminate]. injection H as <-. apply Hq.
    + rewrite Nat.eqb_refl. lia.
    + rewrite Nat.eqb_refl. lia.
Qed.

Ltac tests := repeat match goal with
  | |- context [Nat.eqb ?a ?b] => destruct (Nat.eqb_spec a b)
  | |- context [Nat.ltb ?a ?b] => destruct (Nat.ltb_spec a b) end.
Lemma fence_build p : forall b, exists rd wr, fenced rd wr b (psize p) (build (V := V) b p).
Proof.
  induction p as [n xs|f p IH|op p IHp q IHq|count fill p IH|count p IH|n p IH|z a s sc per p IH]; intros b; cbn [build psize];
    try (pose proof (psize_pos p) as Pp).
  - exists (fun c => c), (fun c => c). intros i p H. destruct i as [|[|i]]; try discriminate. injection H as <-. apply uses_source. lia.
  - destruct (IH b) as (rd & wr & F). eapply fence_one; [exact F|apply build_length|exact Pp|]. intros R W HR HW.
    replace (b + S (psize p) - 1 - 1) with (b + psize p - 1) by lia. replace (b + S (psize p) - 1) with (b + psize p) by lia. now apply uses_apply.
  - pose proof (psize_pos q) as Pq. destruct (IHp b) as (rd1 & wr1 & F1), (IHq (b + psize p)) as (rd2 & wr2 & F2).
    set (o1 := b + psize p - 1). set (o2 := b + psize p + psize q - 1). set (o := b + psize p + psize q).
    exists (fun c => if Nat.eqb c o1 then o else if Nat.eqb c o2 then o else if Nat.ltb c (b + psize p) then rd1 c else rd2 c),
           (fun c => if Nat.eqb c o then o else if Nat.ltb c (b + psize p) then wr1 c else wr2 c).
    intros i pr Hp. destruct (proc_app_cases _ _ _ Hp) as [H|[L2 H]]; [|destruct (proc_app_cases _ _ _ H) as [H'|[L3 H']]].
    + eapply uses_mono; [| |exact (F1 _ _ H)]; cbv beta; intros c [H1 H2].
      * destruct (Nat.eqb_spec c o1), (Nat.eqb_spec c o2), (Nat.ltb_spec c (b + psize p)); unfold o1, o2, o in *; lia.
      * destruct (Nat.eqb_spec c o), (Nat.ltb_spec c (b + psize p)); unfold o1, o2, o in *; lia.
    + rewrite build_length in *. eapply uses_mono; [| |exact (F2 _ _ H')]; cbv beta; intros c [H1 H2].
      * destruct (Nat.eqb_spec c o1), (Nat.eqb_spec c o2), (Nat.ltb_spec c (b + psize p)); unfold o1, o2, o in *; lia.
      * destruct (Nat.eqb_spec c o), (Nat.ltb_spec c (b + psize p)); unfold o1, o2, o in *; lia.
    + rewrite !build_length in *. destruct (i - psize p - psize q) as [|m] eqn:Ei; [|destruct m; discriminate]. injection H' as <-. apply uses_operate.
      all: tests; unfold o1, o2, o in *; lia.
  - destruct (IH b) as (rd & wr & F). eapply fence_one; [exact F|apply build_length|exact Pp|]. intros R W HR HW.
    replace (b + S (psize p) - 1 - 1) with (b + psize p - 1) by lia. replace (b + S (psize p) - 1) with (b + psize p) by lia. now apply uses_shift.
  - destruct (IH b) as (rd & wr & F). eapply fence_one; [exact F|apply build_length|exact Pp|]. intros R W HR HW.
    replace (b + S (psize p) - 1 - 1) with (b + psize p - 1) by lia. replace (b + S (psize p) - 1) with (b + psize p) by lia. now apply uses_skip.
  - destruct (IH b) as (rd & wr & F). eapply fence_one; [exact F|apply build_length|exact Pp|]. intros R W HR HW.
    replace (b + S (psize p) - 1 - 1) with (b + psize p - 1) by lia. replace (b + S (psize p) - 1) with (b + psize p) by lia. now apply uses_pipe.
  - destruct (IH b) as (rd & wr & F). set (d := b + psize p).
    exists (fun c => if Nat.ltb c (d - 1) then rd c else if Nat.eqb c (d - 1) then d else if Nat.eqb c d then d + 3 else if Nat.eqb c (d + 1) then d + 2
                     else if Nat.eqb c (d + 2) then d + 3 else d + 4),
           (fun c => if Nat.ltb c d then wr c else if Nat.eqb c (d + 1) then d else c).
    intros i pr Hp. destruct (proc_app_cases _ _ _ Hp) as [H|[L2 H]].
    + eapply uses_mono; [| |exact (F _ _ H)]; cbv beta; intros c [H1 H2].
      * destruct (Nat.ltb_spec c (d - 1)); (unfold d in *; lia).
      * destruct (Nat.ltb_spec c d); (unfold d in *; lia).
    + rewrite build_length in *. assert (Hi : i = psize p + (i - psize p)) by (unfold d in *; lia).
      destruct (i - psize p) as [|[|[|[|[|m]]]]]; try (destruct m; discriminate); injection H as <-.
      * apply uses_dup; [|repeat constructor|constructor]; tests; unfold d in *; lia.
      * constructor.
      * apply uses_shift; tests; unfold d in *; lia.
      * apply uses_operate; tests; unfold d in *; lia.
      * apply uses_apply; tests; unfold d in *; lia.
Qed.

(** ** conclusions *)
Lemma stuck_done (s : cfg) : Forall (fun g => exists r, snd g = Done r) s -> stuck s.
Proof.
  intros F s' St.
  assert (D : forall i p, proc_at s i = Some p -> exists r, p = Done r).
  { intros i p H. unfold proc_at in H. destruct (nth_error s i) as [g|] eqn:E; [|discriminate]. injection H as <-.
    rewrite Forall_forall in F. apply F. eapply nth_error_In; eassumption. }
  destruct St as [s i k H|s i c p ch p' ch' H1 H2 A|s i j c v k h ch H1 H2 H3 H4 H5 H6].
  - destruct (D _ _ H) as [r E]. discriminate.
  - destruct (D _ _ H1) as [r E]. subst p. inversion A.
  - destruct (D _ _ H1) as [r E]. discriminate.
Qed.
Lemma ends_of rd wr (s z : cfg) N : owned rd wr s -> steps N s z -> stuck z -> always_ends s N z.
Proof.
  intros O H Hz. split; [exact Hz|]. intros n c Hc. destruct (scheduler_irrelevant O H Hz Hc) as (k & <- & Hk).
  split; [lia|]. split; [now replace (n + k - n) with k by lia|]. intros Hs. inversion Hk; subst; [split; [reflexivity|lia]|].
  destruct (Hs _ H0).
Qed.

Lemma collected_ends p : buildable p -> exists N z, always_ends (collected (V := V) p) N z /\ returned z (Slice (meaning p)).
Proof.
  intros B. pose proof (@run_build p 0 B) as O. pose proof (psize_pos p) as Pp.
  destruct (@run_collect 0 (psize p - 1) (meaning p) (build 0 p) [] (mk V 0) O) as (t & E & L & R).
  destruct (R [] [] eq_refl) as (N & HN). cbn [app] in HN. rewrite !app_nil_r in HN.
  exists N, (t ++ [(mk V 0, Done (Slice (meaning p)))]).
  destruct (fence_build p 0) as (rd & wr & F).
  destruct (@fence_one rd wr 0 (psize p) (build 0 p) (mk V 0) (collectP [] (psize p - 1)) F) as (rd' & wr' & F');
    [apply build_length|exact Pp|intros; now apply uses_collect|].
  split; [|exists t, (mk V 0); split; [reflexivity|apply (ended_done E)]].
  eapply ends_of with (rd := rd') (wr := wr'); [|exact HN|].
  - intros i q Hq. eapply uses_mono; [| |exact (F' _ _ Hq)]; cbn; intros c [H1 _]; exact H1.
  - apply stuck_done. apply Forall_app. split; [|constructor; [cbn; eauto|constructor]].
    eapply Forall_impl; [|exact (ended_done E)]. cbn. intros g ->. eauto.
Qed.
End Net.
