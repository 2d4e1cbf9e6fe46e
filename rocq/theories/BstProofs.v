(** * Proofs about the containers. *)
From Coq Require Import Permutation Sorting.Sorted.
From Verif Require Import Base Num Order Containers.
Set Implicit Arguments.

(** In-order traversal: the bag of values a tree holds. *)
Fixpoint elems {V} (t : tree V) : list V :=
  match t with Leaf => [] | Node l x r => elems l ++ x :: elems r end.

Section Bst.
Variable V : Type.
Variable cmp : V -> V -> res Z.
Variable dom : V -> Prop.             (* comparable values *)
Variable ltb : V -> V -> bool.
Hypothesis cmp_ok : forall v w, dom v -> dom w ->
  cmp v w = Ok (if ltb v w then -1 else if ltb w v then 1 else 0).
Hypothesis asym : forall x y, dom x -> dom y -> ltb x y = true -> ltb y x = false.
Hypothesis ntrans : forall x y z, dom x -> dom y -> dom z ->
  ltb x y = false -> ltb y z = false -> ltb x z = false.

Definition vle (x y : V) : Prop := ltb y x = false.
Definition veq (x y : V) : Prop := ltb x y = false /\ ltb y x = false.

Lemma vle_trans x y z : dom x -> dom y -> dom z -> vle x y -> vle y z -> vle x z.
Proof. unfold vle; intros; eapply ntrans with (y := y); auto. Qed.
Lemma vle_refl x : dom x -> vle x x.
Proof. intros Hx; unfold vle; destruct (ltb x x) eqn:E; [|reflexivity]. pose proof (asym Hx Hx E); congruence. Qed.

(** Weak search-tree order. *)
Fixpoint wf (t : tree V) : Prop :=
  match t with
  | Leaf => True
  | Node l x r =>
      wf l /\ wf r /\ dom x /\
      (forall y, In y (elems l) -> dom y /\ vle y x) /\
      (forall y, In y (elems r) -> dom y /\ vle x y)
  end.

Lemma wf_dom t y : wf t -> In y (elems t) -> dom y.
Proof.
  destruct t as [|l x r]; cbn; [tauto|]. intros (Hl & Hr & Hx & HL & HR) H.
  apply in_app_or in H as [H|[<-|H]]; auto.
  - now apply HL.
  - now apply HR.
Qed.

Lemma tInsert_spec t v : wf t -> dom v ->
  exists t', tInsert cmp t v = Ok t' /\ wf t' /\ Permutation (elems t') (v :: elems t).
Proof.
  induction t as [|l IHl x r IHr]; cbn [tInsert wf]; intros Hwf Hv.
  - eexists; split; [reflexivity|]. cbn. repeat split; auto; tauto.
  - destruct Hwf as (Hl & Hr & Hx & HL & HR).
    rewrite cmp_ok by auto. cbn [bind].
    set (c := if ltb v x then -1 else if ltb x v then 1 else 0).
    assert (Hc : (c <=? 0) = true /\ vle v x \/ (c <=? 0) = false /\ vle x v).
    { subst c; unfold vle. destruct (ltb v x) eqn:E1.
      - left; split; [reflexivity|]. now apply asym.
      - destruct (ltb x v) eqn:E2; [right|left]; split; reflexivity. }
    destruct Hc as [[-> Hle]|[-> Hle]].
    + destruct (IHl Hl Hv) as (l' & E & Hl' & P). rewrite E; cbn [bind].
      eexists; split; [reflexivity|]. cbn [elems wf]. split.
      * split; [auto|]. split; [auto|]. split; [auto|]. split; [|exact HR].
        intros y Hy. apply (Permutation_in _ P) in Hy; destruct Hy as [<-|Hy]; auto.
      * rewrite P. reflexivity.
    + destruct (IHr Hr Hv) as (r' & E & Hr' & P). rewrite E; cbn [bind].
      eexists; split; [reflexivity|]. cbn [elems wf]. split.
      * split; [auto|]. split; [auto|]. split; [auto|]. split; [exact HL|].
        intros y Hy. apply (Permutation_in _ P) in Hy; destruct Hy as [<-|Hy]; auto.
      * rewrite P.
        transitivity (elems l ++ v :: x :: elems r).
        -- apply Permutation_app_head. constructor.
        -- symmetry. apply Permutation_middle.
Qed.

Lemma tInserts_spec vs : forall t, wf t -> Forall dom vs ->
  exists t', tInserts cmp t vs = Ok t' /\ wf t' /\ Permutation (elems t') (rev vs ++ elems t).
Proof.
  induction vs as [|v vs IH]; intros t Ht Hd; cbn [tInserts].
  - exists t; auto.
  - inversion Hd as [|? ? Hv Hvs]; subst.
    destruct (tInsert_spec t Ht Hv) as (t1 & E & H1 & P1). rewrite E; cbn [bind].
    destruct (IH t1 H1 Hvs) as (t2 & E2 & H2 & P2).
    exists t2; split; [exact E2|]. split; [exact H2|].
    rewrite P2, P1. cbn [rev]. rewrite <- app_assoc. reflexivity.
Qed.

Lemma takeMin_spec l : forall x r m t', takeMin l x r = (m, t') -> wf (Node l x r) ->
  wf t' /\ dom m /\ elems (Node l x r) = m :: elems t' /\
  (forall y, In y (elems t') -> vle m y).
Proof.
  induction l as [|ll IHll lx lr IHlr]; intros x r m t' E Hwf.
  - cbn in E; injection E as <- <-. cbn in Hwf. destruct Hwf as (_ & Hr & Hx & _ & HR).
    repeat split; auto. intros y Hy; now apply HR.
  - cbn [takeMin] in E. destruct (takeMin ll lx lr) as [m1 l1] eqn:E1.
    injection E as <- <-. cbn [wf] in Hwf.
    destruct Hwf as (Hl & Hr & Hx & HL & HR).
    destruct (IHll lx lr m1 l1 E1 Hl) as (H1 & Hm & Eel & Hmin).
    assert (HinL : forall y, In y (elems l1) -> In y (elems (Node ll lx lr))).
    { intros y Hy; rewrite Eel; now right. }
    assert (HmL : In m1 (elems (Node ll lx lr))) by (rewrite Eel; now left).
    split; [|split; [exact Hm|split]].
    + cbn [wf]. split; [auto|]. split; [auto|]. split; [auto|]. split; [intros y Hy; apply HL; auto | intros y Hy; apply HR; auto].
    + cbn [elems] in *. rewrite Eel. reflexivity.
    + cbn [elems]. intros y Hy. apply in_app_or in Hy as [Hy|[<-|Hy]].
      * now apply Hmin.
      * now apply HL.
      * eapply vle_trans with (y := x); auto; try apply HR; auto. now apply HL.
Qed.

Lemma removeNode_spec l x r : wf (Node l x r) ->
  wf (removeNode l r) /\ Permutation (elems (Node l x r)) (x :: elems (removeNode l r)).
Proof.
  intros Hwf. assert (Hwf' := Hwf). cbn [wf] in Hwf'.
  destruct Hwf' as (Hl & Hr & Hx & HL & HR).
  destruct l as [|ll lx lr]; [cbn; auto|].
  destruct r as [|rl rx rr].
  - cbn [removeNode]. split; [exact Hl|]. cbn [elems].
    rewrite <- Permutation_middle. rewrite app_nil_r. reflexivity.
  - unfold removeNode. destruct (takeMin rl rx rr) as [m r'] eqn:E.
    destruct (takeMin_spec E Hr) as (Hr' & Hm & Eel & Hmin).
    split.
    + cbn [wf]. split; [exact Hl|]. split; [exact Hr'|]. split; [exact Hm|].
      assert (HmR : dom m /\ vle x m) by (apply HR; rewrite Eel; now left).
      split.
      * intros y Hy. destruct (HL y Hy) as [Hy1 Hy2]. split; [exact Hy1|].
        eapply vle_trans with (y := x); tauto.
      * intros y Hy. split; [|now apply Hmin]. apply HR. rewrite Eel; now right.
    + change (elems (Node (Node ll lx lr) x (Node rl rx rr))) with
        (elems (Node ll lx lr) ++ x :: elems (Node rl rx rr)).
      rewrite Eel.
      change (elems (Node (Node ll lx lr) m r')) with (elems (Node ll lx lr) ++ m :: elems r').
      symmetry. apply Permutation_middle.
Qed.

Lemma tRemove_spec t v : wf t -> dom v ->
  exists t' b, tRemove cmp t v = Ok (t', b) /\ wf t' /\
    (b = true -> exists w, veq v w /\ Permutation (elems t) (w :: elems t')) /\
    (b = false -> t' = t /\ forall w, In w (elems t) -> ~ veq v w).
Proof.
  induction t as [|l IHl x r IHr]; intros Hwf Hv.
  - exists Leaf, false. cbn. repeat split; auto; try discriminate; tauto.
  - assert (Hwf' := Hwf). cbn [wf] in Hwf'.
    destruct Hwf' as (Hl & Hr & Hx & HL & HR).
    cbn [tRemove]. rewrite cmp_ok by auto. cbn [bind].
    destruct (ltb v x) eqn:E1.
    + (* left *)
      cbn [Z.eqb]. change (-1 =? 0) with false. change (-1 =? -1) with true. cbv iota.
      destruct (IHl Hl Hv) as (l' & b & E & Hl' & HT & HF). rewrite E; cbn [bind].
      exists (Node l' x r), b. split; [reflexivity|].
      assert (Hin : forall y, In y (elems l') -> In y (elems l)).
      { intros y Hy. destruct b.
        - destruct (HT eq_refl) as (w & _ & P). eapply Permutation_in; [symmetry; exact P|]. now right.
        - destruct (HF eq_refl) as [-> _]; exact Hy. }
      split; [|split].
      * cbn [wf]. split; [auto|]. split; [auto|]. split; [auto|]. split; [intros y Hy; apply HL; auto | intros y Hy; apply HR; auto].
      * intros ->. destruct (HT eq_refl) as (w & Hw & P). exists w; split; [exact Hw|].
        cbn [elems]. rewrite P. reflexivity.
      * intros ->. destruct (HF eq_refl) as [-> Hn]. split; [reflexivity|].
        cbn [elems]. intros w Hw. apply in_app_or in Hw as [Hw|[<-|Hw]]; auto.
        -- intros [H _]; congruence.
        -- intros [H1 H2]. destruct (HR w Hw) as [Hdw Hxw]. unfold vle in Hxw.
           assert (ltb v x = false) by (eapply ntrans with (y := w); auto). congruence.
    + destruct (ltb x v) eqn:E2.
      * (* right *)
        change (1 =? 0) with false. change (1 =? -1) with false. cbv iota.
        destruct (IHr Hr Hv) as (r' & b & E & Hr' & HT & HF). rewrite E; cbn [bind].
        exists (Node l x r'), b. split; [reflexivity|].
        assert (Hin : forall y, In y (elems r') -> In y (elems r)).
        { intros y Hy. destruct b.
          - destruct (HT eq_refl) as (w & _ & P). eapply Permutation_in; [symmetry; exact P|]. now right.
          - destruct (HF eq_refl) as [-> _]; exact Hy. }
        split; [|split].
        -- cbn [wf]. split; [auto|]. split; [auto|]. split; [auto|]. split; [intros y Hy; apply HL; auto | intros y Hy; apply HR; auto].
        -- intros ->. destruct (HT eq_refl) as (w & Hw & P). exists w; split; [exact Hw|].
           cbn [elems]. rewrite P. rewrite (Permutation_middle (elems l) (x :: elems r') w).
           apply Permutation_app_head. constructor.
        -- intros ->. destruct (HF eq_refl) as [-> Hn]. split; [reflexivity|].
           cbn [elems]. intros w Hw. apply in_app_or in Hw as [Hw|[<-|Hw]]; auto.
           ++ intros [H1 H2]. destruct (HL w Hw) as [Hdw Hwx]. unfold vle in Hwx.
              assert (ltb x v = false) by (eapply ntrans with (y := w); auto). congruence.
           ++ intros [_ H]; congruence.
      * (* found *)
        change (0 =? 0) with true. cbv iota.
        destruct (removeNode_spec Hwf) as [Hw P].
        exists (removeNode l r), true. split; [reflexivity|]. split; [exact Hw|]. split.
        -- intros _. exists x; split; [split; assumption|exact P].
        -- discriminate.
Qed.

Lemma tMin_spec t : wf t ->
  match tMin t with
  | None => elems t = []
  | Some m => In m (elems t) /\ forall y, In y (elems t) -> vle m y
  end.
Proof.
  induction t as [|l IHl x r IHr]; [reflexivity|].
  cbn [wf]. intros (Hl & Hr & Hx & HL & HR).
  destruct l as [|ll lx lr].
  - cbn [tMin elems app]. split; [now left|].
    intros y [<-|Hy]; [now apply vle_refl|now apply HR].
  - specialize (IHl Hl). change (tMin (Node (Node ll lx lr) x r)) with (tMin (Node ll lx lr)).
    destruct (tMin (Node ll lx lr)) as [m|]; [|cbn in IHl; now destruct (elems ll)].
    destruct IHl as [Hin Hmin].
    change (elems (Node (Node ll lx lr) x r)) with (elems (Node ll lx lr) ++ x :: elems r).
    destruct (HL m Hin) as [Hdm Hmx].
    split; [apply in_or_app; now left|].
    intros y Hy. apply in_app_or in Hy as [Hy|[<-|Hy]]; auto.
    destruct (HR y Hy). eapply vle_trans with (y := x); auto.
Qed.

Lemma tMax_spec t : wf t ->
  match tMax t with
  | None => elems t = []
  | Some m => In m (elems t) /\ forall y, In y (elems t) -> vle y m
  end.
Proof.
  induction t as [|l IHl x r IHr]; [reflexivity|].
  cbn [wf]. intros (Hl & Hr & Hx & HL & HR).
  destruct r as [|rl rx rr].
  - cbn [tMax elems]. split; [apply in_or_app; right; now left|].
    intros y Hy. apply in_app_or in Hy as [Hy|[<-|[]]]; [now apply HL|now apply vle_refl].
  - specialize (IHr Hr). change (tMax (Node l x (Node rl rx rr))) with (tMax (Node rl rx rr)).
    destruct (tMax (Node rl rx rr)) as [m|]; [|cbn in IHr; now destruct (elems rl)].
    destruct IHr as [Hin Hmin].
    change (elems (Node l x (Node rl rx rr))) with (elems l ++ x :: elems (Node rl rx rr)).
    destruct (HR m Hin) as [Hdm Hmx].
    split; [apply in_or_app; right; now right|].
    intros y Hy. apply in_app_or in Hy as [Hy|[<-|Hy]]; auto.
    destruct (HL y Hy). eapply vle_trans with (y := x); auto.
Qed.
End Bst.

(* ------------------------------------------------------------------ *)
(** ** Histories *)
From Verif Require Import SpecContainers.

Section History.
Variable V : Type.
Variable cmp : V -> V -> res Z.
Variable dom : V -> Prop.
Variable ltb : V -> V -> bool.
Hypothesis cmp_ok : forall v w, dom v -> dom w ->
  cmp v w = Ok (if ltb v w then -1 else if ltb w v then 1 else 0).
Hypothesis asym : forall x y, dom x -> dom y -> ltb x y = true -> ltb y x = false.
Hypothesis ntrans : forall x y z, dom x -> dom y -> dom z ->
  ltb x y = false -> ltb y z = false -> ltb x z = false.
Variable seq sle : V -> V -> Prop.       (* specification's relations *)
Hypothesis seq_iff : forall x y, dom x -> dom y -> (seq x y <-> veq ltb x y).
Hypothesis sle_iff : forall x y, dom x -> dom y -> (sle x y <-> vle ltb x y).

Lemma brun_spec os : forall t, wf dom ltb t ->
  (forall o, In o os -> Forall dom (bop_vals o)) ->
  exists t' rs, brun cmp t os = Ok (t', rs) /\ wf dom ltb t' /\
    bag_run seq sle (elems t) os rs (elems t').
Proof.
  induction os as [|o os IH]; intros t Ht Hd.
  - exists t, []. cbn. split; [reflexivity|]. split; [exact Ht|constructor].
  - assert (Ho : Forall dom (bop_vals o)) by (apply Hd; now left).
    assert (Hos : forall o', In o' os -> Forall dom (bop_vals o')) by (intros; apply Hd; now right).
    assert (Hs : exists t1 r, bstep cmp t o = Ok (t1, r) /\ wf dom ltb t1 /\
                              bag_step seq sle (elems t) o r (elems t1)).
    { destruct o as [v|vs|v| |]; cbn [bop_vals] in Ho; cbn [bstep].
      - inversion Ho as [|? ? Hv _]; subst.
        destruct (@tInsert_spec V cmp dom ltb cmp_ok asym t v Ht Hv) as (t1 & E & H1 & P).
        rewrite E. exists t1, ONone. cbn. repeat split; auto. now constructor.
      - destruct (@tInserts_spec V cmp dom ltb cmp_ok asym vs t Ht Ho) as (t1 & E & H1 & P).
        rewrite E. exists t1, ONone. cbn. repeat split; auto. constructor.
        rewrite P. apply Permutation_app_tail. symmetry; apply Permutation_rev.
      - inversion Ho as [|? ? Hv _]; subst.
        destruct (@tRemove_spec V cmp dom ltb cmp_ok ntrans t v Ht Hv) as (t1 & b & E & H1 & HT & HF).
        rewrite E. exists t1, (OBool b). cbn. split; [reflexivity|]. split; [exact H1|].
        destruct b.
        + destruct (HT eq_refl) as (w & Hw & P). econstructor; [|exact P].
          apply seq_iff; auto. eapply (@wf_dom V dom ltb t); eauto.
          eapply Permutation_in; [symmetry; exact P|now left].
        + destruct (HF eq_refl) as [-> Hn]. constructor. intros w Hw Hsq.
          apply (Hn w Hw). apply seq_iff; auto. eapply (@wf_dom V dom ltb t); eauto.
      - exists t, (OVal (tMin t)). split; [reflexivity|]. split; [exact Ht|].
        pose proof (@tMin_spec V dom ltb asym ntrans t Ht) as H. destruct (tMin t) as [m|].
        + destruct H as [Hin Hb]. constructor; auto. intros y Hy.
          apply sle_iff; try eapply (@wf_dom V dom ltb t); eauto.
        + rewrite H. constructor.
      - exists t, (OVal (tMax t)). split; [reflexivity|]. split; [exact Ht|].
        pose proof (@tMax_spec V dom ltb asym ntrans t Ht) as H. destruct (tMax t) as [m|].
        + destruct H as [Hin Hb]. constructor; auto. intros y Hy.
          apply sle_iff; try eapply (@wf_dom V dom ltb t); eauto.
        + rewrite H. constructor. }
    destruct Hs as (t1 & r & E1 & H1 & S1).
    destruct (IH t1 H1 Hos) as (t2 & rs & E2 & H2 & S2).
    exists t2, (r :: rs). cbn [brun]. rewrite E1; cbn [bind]. rewrite E2; cbn [bind].
    split; [reflexivity|]. split; [exact H2|]. econstructor; eauto.
Qed.
End History.

(** Instances of the comparison. *)
Definition ifloat_ltb {N : Num} (a b : iface N) : bool :=
  match a, b with VFloat x, VFloat y => x <~ y | _, _ => false end.
Definition iint_ltb {N : Num} (a b : iface N) : bool :=
  match a, b with VInt x, VInt y => x <? y | _, _ => false end.

Lemma bst_float_history (N : Num) (O : OrdLaws N) (os : list (bop (iface N))) :
  (forall o, In o os -> Forall float_not_nan (bop_vals o)) ->
  exists t rs bag, brun Compare Leaf os = Ok (t, rs) /\ bag_run iveq ivle [] os rs bag /\
                   Permutation bag (elems t).
Proof.
  intros Hd.
  destruct (@brun_spec _ Compare float_not_nan ifloat_ltb) with (seq := iveq (N:=N)) (sle := ivle (N:=N))
     (os := os) (t := @Leaf (iface N)) as (t & rs & E & _ & B); auto.
  - intros [x|x|] [y|y|]; cbn; try tauto; try reflexivity.
  - intros [x|x|] [y|y|]; cbn; try tauto. apply (ol_asym O).
  - intros [x|x|] [y|y|] [z|z|]; cbn; try tauto. apply (ol_ntrans O).
  - intros [x|x|] [y|y|]; cbn; try tauto. intros Hx Hy.
    rewrite (feq_le O) by auto. unfold le, veq; cbn. tauto.
  - intros [x|x|] [y|y|]; cbn; try tauto. intros Hx Hy.
    rewrite (fle_le O) by auto. unfold le, vle; cbn. tauto.
  - exact I.
  - exists t, rs, (elems t). auto.
Qed.

Lemma bst_int_history (N : Num) (os : list (bop (iface N))) :
  (forall o, In o os -> Forall is_int (bop_vals o)) ->
  exists t rs bag, brun Compare Leaf os = Ok (t, rs) /\ bag_run iveq ivle [] os rs bag /\
                   Permutation bag (elems t).
Proof.
  intros Hd.
  destruct (@brun_spec _ Compare is_int iint_ltb) with (seq := iveq (N:=N)) (sle := ivle (N:=N))
     (os := os) (t := @Leaf (iface N)) as (t & rs & E & _ & B); auto.
  - intros [x|x|] [y|y|]; cbn; try tauto; try reflexivity.
  - intros [x|x|] [y|y|]; cbn; try tauto; try lia.
  - intros [x|x|] [y|y|] [z|z|]; cbn; try tauto; try lia.
  - intros [x|x|] [y|y|]; cbn; try tauto. unfold veq; cbn. lia.
  - intros [x|x|] [y|y|]; cbn; try tauto. unfold vle; cbn. lia.
  - exact I.
  - exists t, rs, (elems t). auto.
Qed.

(** Queue histories. *)
Lemma qrun_fifo A (os : list (qop A)) : forall q q' rs,
  qrun q os = Ok (q', rs) -> q ++ enqueued os = dequeued rs ++ q'.
Proof.
  induction os as [|o os IH]; intros q q' rs E; cbn [qrun] in E.
  - injection E as <- <-. cbn. now rewrite app_nil_r.
  - apply bind_ok in E as ((q1 & r) & E1 & E). apply bind_ok in E as ((q2 & rs1) & E2 & E).
    injection E as <- <-. apply IH in E2. destruct o as [v| |]; cbn [qstep enqueued] in *.
    + injection E1 as <- <-. cbn [dequeued]. rewrite <- E2. unfold qEnqueue. now rewrite <- app_assoc.
    + apply bind_ok in E1 as ((v & q3) & Ed & E1). injection E1 as <- <-.
      destruct q as [|w q]; [discriminate|]. cbn in Ed; injection Ed as <- <-.
      cbn [dequeued app]. now rewrite <- E2.
    + injection E1 as <- <-. exact E2.
Qed.

Lemma qrun_defined A (os : list (qop A)) : forall q,
  (forall n, (deqs (firstn n os) <= length q + length (enqueued (firstn n os)))%nat) <->
  exists q' rs, qrun q os = Ok (q', rs).
Proof.
  induction os as [|o os IH]; intros q.
  - split; [exists q, []; reflexivity|]. intros _ n. rewrite firstn_nil. cbn; lia.
  - destruct o as [v| |].
    + split.
      * intros H. destruct (proj1 (IH (qEnqueue q v))) as (q' & rs & E).
        { intros n. specialize (H (S n)). cbn in H. unfold qEnqueue. rewrite app_length. cbn.
          unfold deqs in *. cbn in H. lia. }
        exists q', (QUnit :: rs). cbn [qrun qstep bind]. rewrite E. reflexivity.
      * intros (q' & rs & E) n. cbn [qrun qstep bind] in E.
        apply bind_ok in E as ((q2 & rs1) & E2 & _).
        destruct n as [|n]; [cbn; lia|].
        pose proof (proj2 (IH (qEnqueue q v)) (ex_intro _ q2 (ex_intro _ rs1 E2)) n) as H.
        unfold qEnqueue in H. rewrite app_length in H. cbn in H |- *.
        unfold deqs in *. cbn. lia.
    + split.
      * intros H. destruct q as [|w q].
        { specialize (H 1%nat). cbn in H. lia. }
        destruct (proj1 (IH q)) as (q' & rs & E).
        { intros n. specialize (H (S n)). cbn in H. unfold deqs in *. cbn in H. lia. }
        exists q', (QVal w :: rs). cbn [qrun qstep qDequeue bind]. rewrite E. reflexivity.
      * intros (q' & rs & E) n. cbn [qrun qstep] in E. destruct q as [|w q]; [discriminate|].
        cbn [qDequeue bind] in E. apply bind_ok in E as ((q2 & rs1) & E2 & _).
        destruct n as [|n]; [cbn; lia|].
        pose proof (proj2 (IH q) (ex_intro _ q2 (ex_intro _ rs1 E2)) n) as H.
        cbn in H |- *. unfold deqs in *. cbn. lia.
    + split.
      * intros H. destruct (proj1 (IH q)) as (q' & rs & E).
        { intros n. specialize (H (S n)). cbn in H. unfold deqs in *. cbn in H. lia. }
        exists q', (QBool (qEmpty q) :: rs). cbn [qrun qstep bind]. rewrite E. reflexivity.
      * intros (q' & rs & E) n. cbn [qrun qstep bind] in E.
        apply bind_ok in E as ((q2 & rs1) & E2 & _).
        destruct n as [|n]; [cbn; lia|].
        pose proof (proj2 (IH q) (ex_intro _ q2 (ex_intro _ rs1 E2)) n) as H.
        cbn in H |- *. unfold deqs in *. cbn. lia.
Qed.

Lemma qrun_app A (os1 os2 : list (qop A)) q :
  qrun q (os1 ++ os2) =
  ('(q1, r1) <- qrun q os1 ;; '(q2, r2) <- qrun q1 os2 ;; Ok (q2, r1 ++ r2)).
Proof.
  revert q; induction os1 as [|o os1 IH]; intros q.
  - cbn. destruct (qrun q os2) as [[? ?]|]; reflexivity.
  - cbn [app qrun]. destruct (qstep q o) as [[q1 r]|]; cbn [bind]; [|reflexivity].
    rewrite IH. destruct (qrun q1 os1) as [[q2 r1]|]; cbn [bind]; [|reflexivity].
    destruct (qrun q2 os2) as [[q3 r2]|]; reflexivity.
Qed.

Lemma queue_fifo A (os : list (qop A)) q rs :
  qrun qNew os = Ok (q, rs) -> enqueued os = dequeued rs ++ q.
Proof. intros E. apply qrun_fifo in E. exact E. Qed.

Lemma queue_panics_iff A (os : list (qop A)) :
  qrun qNew os = Panic <-> ~ never_underflows os.
Proof.
  pose proof (qrun_defined os (qNew (A:=A))) as H. unfold never_underflows. cbn [length qNew Nat.add] in H.
  destruct (qrun qNew os) as [[q' rs]|] eqn:E.
  - split; [discriminate|]. intros Hn. exfalso; apply Hn, H. eauto.
  - split; [|reflexivity]. intros _ Hn. apply H in Hn as (q' & rs & E2). congruence.
Qed.

Lemma queue_empty_reports A (os1 os2 : list (qop A)) q rs :
  qrun qNew (os1 ++ QEmpty :: os2) = Ok (q, rs) ->
  exists rs1 rs2, rs = rs1 ++ QBool (Nat.eqb (length (dequeued rs1)) (length (enqueued os1))) :: rs2 /\
    length rs1 = length os1.
Proof.
  intros E. rewrite qrun_app in E.
  apply bind_ok in E as ((q1 & r1) & E1 & E). cbn [qrun qstep bind] in E.
  apply bind_ok in E as ((q2 & r2) & E2 & E). injection E as <- <-.
  apply bind_ok in E2 as ((q3 & r3) & E3 & E2). injection E2 as <- <-.
  exists r1, r3. split.
  - do 3 f_equal. apply qrun_fifo in E1. cbn [app qNew] in E1.
    apply (f_equal (@length A)) in E1. rewrite app_length in E1. rewrite E1.
    unfold qEmpty, len. destruct q1; cbn [length].
    + rewrite Nat.add_0_r, Nat.eqb_refl. reflexivity.
    + symmetry. destruct (Nat.eqb_spec (length (dequeued r1)) (length (dequeued r1) + S (length q1))); [lia|].
      destruct (Z.eqb_spec (Z.of_nat (S (length q1))) 0); [lia|reflexivity].
  - clear -E1. revert E1. generalize (qNew (A := A)). revert r1 q1.
    induction os1 as [|o os1 IH]; intros r1 q1 q E1; cbn [qrun] in E1.
    + injection E1 as <- <-. reflexivity.
    + apply bind_ok in E1 as ((q2 & r) & Es & E1). apply bind_ok in E1 as ((q3 & rs) & Er & E1).
      injection E1 as <- <-. cbn. f_equal. eapply IH; eauto.
Qed.

(** ** Without any order law: sizes only *)
Section Size.
Variable V : Type.
Variable cmp : V -> V -> res Z.
Variable dom : V -> Prop.
Hypothesis cmp_def : forall x y, dom x -> dom y -> exists c, cmp x y = Ok c.

Lemma tInsert_size t : forall v, dom v -> Forall dom (elems t) ->
  exists t', tInsert cmp t v = Ok t' /\ Permutation (elems t') (v :: elems t).
Proof.
  induction t as [|l IHl x r IHr]; intros v Hv Ht; cbn [tInsert].
  - eexists; split; reflexivity.
  - cbn [elems] in Ht. apply Forall_app in Ht as [Hl Hr]. inversion Hr as [|? ? Hx Hr']; subst.
    destruct (cmp_def Hv Hx) as [c Ec]. rewrite Ec; cbn [bind].
    destruct (c <=? 0).
    + destruct (IHl v Hv Hl) as (l' & E & P). rewrite E; cbn [bind]. eexists; split; [reflexivity|].
      cbn [elems]. rewrite P. reflexivity.
    + destruct (IHr v Hv Hr') as (r' & E & P). rewrite E; cbn [bind]. eexists; split; [reflexivity|].
      cbn [elems]. rewrite P. rewrite perm_swap.
      change (v :: elems l ++ x :: elems r) with ((v :: elems l) ++ x :: elems r).
      rewrite <- Permutation_middle. cbn. reflexivity.
Qed.

Lemma takeMin_elems (l : tree V) : forall x r m t', takeMin l x r = (m, t') ->
  elems (Node l x r) = m :: elems t'.
Proof.
  induction l as [|ll IHll lx lr IHlr]; intros x r m t' E; cbn [takeMin] in E.
  - injection E as <- <-. reflexivity.
  - destruct (takeMin ll lx lr) as [m1 l1] eqn:E1. injection E as <- <-.
    apply IHll in E1. cbn [elems] in *. rewrite E1. reflexivity.
Qed.

Lemma removeNode_elems (l : tree V) x r : Permutation (elems (Node l x r)) (x :: elems (removeNode l r)).
Proof.
  destruct l as [|ll lx lr].
  - reflexivity.
  - destruct r as [|rl rx rr].
    + cbn [removeNode elems]. rewrite Permutation_app_comm. reflexivity.
    + cbn [removeNode]. destruct (takeMin rl rx rr) as [m r'] eqn:E.
      apply takeMin_elems in E.
      change (elems (Node (Node ll lx lr) x (Node rl rx rr)))
        with (elems (Node ll lx lr) ++ x :: elems (Node rl rx rr)).
      rewrite E. change (elems (Node (Node ll lx lr) m r')) with (elems (Node ll lx lr) ++ m :: elems r').
      symmetry. apply Permutation_middle.
Qed.

Lemma tRemove_size t : forall v, dom v -> Forall dom (elems t) ->
  exists t' b, tRemove cmp t v = Ok (t', b) /\
    (b = true -> exists w, Permutation (elems t) (w :: elems t')) /\ (b = false -> t' = t).
Proof.
  induction t as [|l IHl x r IHr]; intros v Hv Ht; cbn [tRemove].
  - exists Leaf, false. split; [reflexivity|]. split; [discriminate|reflexivity].
  - cbn [elems] in Ht. apply Forall_app in Ht as [Hl Hr]. inversion Hr as [|? ? Hx Hr']; subst.
    destruct (cmp_def Hv Hx) as [c Ec]. rewrite Ec; cbn [bind].
    destruct (c =? 0).
    + eexists _, true. split; [reflexivity|]. split; [|discriminate]. intros _; exists x. apply removeNode_elems.
    + destruct (c =? -1).
      * destruct (IHl v Hv Hl) as (l' & b & E & P & Q). rewrite E; cbn [bind]. exists (Node l' x r), b.
        split; [reflexivity|]. split.
        -- intros Hb. destruct (P Hb) as [w Pw]. exists w. cbn [elems]. rewrite Pw. reflexivity.
        -- intros Hb. now rewrite (Q Hb).
      * destruct (IHr v Hv Hr') as (r' & b & E & P & Q). rewrite E; cbn [bind]. exists (Node l x r'), b.
        split; [reflexivity|]. split.
        -- intros Hb. destruct (P Hb) as [w Pw]. exists w. cbn [elems]. rewrite Pw.
           rewrite perm_swap. change (w :: elems l ++ x :: elems r') with ((w :: elems l) ++ x :: elems r').
           rewrite <- Permutation_middle. cbn. reflexivity.
        -- intros Hb. now rewrite (Q Hb).
Qed.

Lemma Forall_perm_dom (P : V -> Prop) a b : Permutation a b -> Forall P a -> Forall P b.
Proof. intros HP. apply Permutation_Forall, HP. Qed.

Lemma tInserts_size vs : forall t, Forall dom vs -> Forall dom (elems t) ->
  exists t', tInserts cmp t vs = Ok t' /\ Permutation (elems t') (vs ++ elems t).
Proof.
  induction vs as [|v vs IH]; intros t Hvs Ht; cbn [tInserts].
  - eauto.
  - inversion Hvs as [|? ? Hv Hvs']; subst.
    destruct (tInsert_size t Hv Ht) as (t1 & E & P). rewrite E; cbn [bind].
    destruct (IH t1 Hvs') as (t2 & E2 & P2).
    { eapply Forall_perm_dom; [symmetry; exact P|]. constructor; auto. }
    exists t2; split; [exact E2|]. rewrite P2, P. symmetry. apply Permutation_middle.
Qed.

Lemma brun_size os : forall t, Forall dom (elems t) ->
  (forall o, In o os -> Forall dom (bop_vals o)) ->
  exists t' rs, brun cmp t os = Ok (t', rs) /\
    (length (elems t') + removals rs = length (elems t) + inserted os)%nat.
Proof.
  induction os as [|o os IH]; intros t Ht Hd; cbn [brun].
  - exists t, []. split; [reflexivity|]. cbn; lia.
  - assert (Ho := Hd o (or_introl eq_refl)).
    assert (Hd' : forall o, In o os -> Forall dom (bop_vals o)) by (intros; apply Hd; now right).
    destruct o as [v|vs|v| |]; cbn [bstep bop_vals inserted] in *.
    + inversion Ho; subst. destruct (@tInsert_size t v) as (t1 & E & P); auto.
      rewrite E; cbn [bind]. destruct (IH t1) as (t2 & rs & E2 & L2); auto.
      { eapply Forall_perm_dom; [symmetry; exact P|]. constructor; auto. }
      rewrite E2; cbn [bind]. eexists _, _; split; [reflexivity|]. cbn [removals].
      apply Permutation_length in P. cbn in P. lia.
    + destruct (@tInserts_size vs t) as (t1 & E & P); auto.
      rewrite E; cbn [bind]. destruct (IH t1) as (t2 & rs & E2 & L2); auto.
      { eapply Forall_perm_dom; [symmetry; exact P|]. apply Forall_app; auto. }
      rewrite E2; cbn [bind]. eexists _, _; split; [reflexivity|]. cbn [removals].
      apply Permutation_length in P. rewrite app_length in P. lia.
    + inversion Ho; subst. destruct (@tRemove_size t v) as (t1 & b & E & P & Q); auto.
      rewrite E; cbn [bind].
      destruct b.
      * destruct (P eq_refl) as [w Pw]. destruct (IH t1) as (t2 & rs & E2 & L2); auto.
        { apply (Forall_perm_dom Pw) in Ht. now inversion Ht. }
        rewrite E2; cbn [bind]. eexists _, _; split; [reflexivity|]. cbn [removals].
        apply Permutation_length in Pw. cbn in Pw. lia.
      * rewrite (Q eq_refl). destruct (IH t) as (t2 & rs & E2 & L2); auto.
        rewrite E2; cbn [bind]. eexists _, _; split; [reflexivity|]. cbn [removals]. lia.
    + cbn [bind]. destruct (IH t) as (t2 & rs & E2 & L2); auto.
      rewrite E2; cbn [bind]. eexists _, _; split; [reflexivity|]. cbn [removals]. lia.
    + cbn [bind]. destruct (IH t) as (t2 & rs & E2 & L2); auto.
      rewrite E2; cbn [bind]. eexists _, _; split; [reflexivity|]. cbn [removals]. lia.
Qed.
End Size.

Lemma bst_total_with_nan (N : Num) (os : list (bop (iface N))) :
  (forall o, In o os -> Forall (fun v => exists x, v = VFloat x) (bop_vals o)) ->
  exists t rs, brun Compare Leaf os = Ok (t, rs) /\
    length (elems t) = (inserted os - removals rs)%nat /\ (removals rs <= inserted os)%nat.
Proof.
  intros Hd.
  destruct (@brun_size _ Compare (fun v => exists x, v = VFloat x)) with (os := os) (t := Leaf (V:=iface N))
    as (t & rs & E & L); auto.
  - intros ? ? [x ->] [y ->]. eexists; reflexivity.
  - constructor.
  - exists t, rs. split; [exact E|]. cbn in L. split; lia.
Qed.
