(** * Chan: Go channels and goroutines, and the goroutines of helpertools.

    A program state is a list of entries, one per channel; entry [i] holds channel
    [i] and the goroutine that was started together with it (Slice2Chan, Apply,
    Operate, Shift and Skip make one channel and start one goroutine each;
    Duplicate makes several channels for one goroutine, the further entries have
    no goroutine of their own; the calling goroutine comes last with a channel
    nobody uses).

    A goroutine is the tree of its remaining channel operations.  All goroutines
    are present from the start: one that Go starts later is one that the
    scheduler has not chosen yet, so every Go execution is an execution here.
    Values of all channels have one type. *)
From Verif Require Import Base.
Set Implicit Arguments.
Open Scope nat_scope.

Section Chan.
Variable V : Type.

(** What a goroutine returns to its caller: nothing; the slice of Chan2Slice;
    the nil or non-nil error of CheckEquals. *)
Inductive result : Type := Quiet | Slice (l : list V) | NoError | Failure.

CoInductive proc : Type :=
| Done (r : result)
| Crash                                       (* a panic: the program dies *)
| Tau (k : proc)                              (* a step without channels *)
| Recv (c : nat) (k : option V -> proc)       (* x, ok := <-c; None is ok = false *)
| Send (c : nat) (v : V) (k : proc)           (* c <- v *)
| Close (c : nat) (k : proc).                 (* close(c) *)

Record chan : Type := mkChan { cap : nat; buf : list V; closed : bool }.
(** make(chan T, n) *)
Definition mk (n : nat) : chan := mkChan n [] false.
Definition node : Type := chan * proc.
Definition cfg : Type := list node.

Definition proc_at (s : cfg) (i : nat) : option proc := option_map snd (nth_error s i).
Definition chan_at (s : cfg) (c : nat) : option chan := option_map fst (nth_error s c).
Fixpoint at_ (f : node -> node) (s : cfg) (i : nat) : cfg :=
  match s, i with
  | [], _ => []
  | x :: s', O => f x :: s'
  | x :: s', S i' => x :: at_ f s' i'
  end.
Definition set_proc (s : cfg) (i : nat) (p : proc) : cfg := at_ (fun n => (fst n, p)) s i.
Definition set_chan (s : cfg) (c : nat) (ch : chan) : cfg := at_ (fun n => (ch, snd n)) s c.

(** What goroutine [p] can do on its own with channel [c]: the Go specification of
    send, receive and close for buffered and closed channels. *)
Inductive act : nat -> proc -> chan -> proc -> chan -> Prop :=
| a_push c v k ch : closed ch = false -> length (buf ch) < cap ch ->
    act c (Send c v k) ch k (mkChan (cap ch) (buf ch ++ [v]) false)
| a_pop c k ch v q : buf ch = v :: q ->
    act c (Recv c k) ch (k (Some v)) (mkChan (cap ch) q (closed ch))
| a_eof c k ch : buf ch = [] -> closed ch = true ->
    act c (Recv c k) ch (k None) ch
| a_close c k ch : closed ch = false ->
    act c (Close c k) ch k (mkChan (cap ch) (buf ch) true)
| a_send_closed c v k ch : closed ch = true -> act c (Send c v k) ch Crash ch
| a_close_closed c k ch : closed ch = true -> act c (Close c k) ch Crash ch.

(** One step of the whole program under some scheduler.  [s_meet] is the
    hand-over of a value through an unbuffered channel. *)
Inductive step : cfg -> cfg -> Prop :=
| s_tau s i k : proc_at s i = Some (Tau k) -> step s (set_proc s i k)
| s_act s i c p ch p' ch' : proc_at s i = Some p -> chan_at s c = Some ch -> act c p ch p' ch' ->
    step s (set_chan (set_proc s i p') c ch')
| s_meet s i j c v k h ch : proc_at s i = Some (Send c v k) -> proc_at s j = Some (Recv c h) ->
    chan_at s c = Some ch -> cap ch = 0 -> buf ch = [] -> closed ch = false ->
    step s (set_proc (set_proc s i k) j (h (Some v))).

Inductive steps : nat -> cfg -> cfg -> Prop :=
| ss_0 s : steps 0 s s
| ss_S n s s1 s2 : step s s1 -> steps n s1 s2 -> steps (S n) s s2.
Definition stuck (s : cfg) : Prop := forall s', ~ step s s'.

(** ** The goroutines of helpertools.  [i], [o] are the input and output channels. *)

(** the sends of a finite list *)
Fixpoint sendAll (o : nat) (xs : list V) (k : proc) : proc :=
  match xs with [] => k | x :: r => Send o x (sendAll o r k) end.
(** Slice2Chan.go:6-12 *)
Definition sourceP (xs : list V) (o : nat) : proc := sendAll o xs (Close o (Done Quiet)).
(** Apply.go:16-22 *)
CoFixpoint applyP (f : V -> V) (i o : nat) : proc :=
  Recv i (fun n => match n with
                   | Some n => Send o (f n) (applyP f i o)
                   | None => Close o (Done Quiet)
                   end).
(** Pipe.go:12-17 run as a goroutine *)
CoFixpoint pipeP (i o : nat) : proc :=
  Recv i (fun n => match n with
                   | Some n => Send o n (pipeP i o)
                   | None => Close o (Done Quiet)
                   end).
(** Shift.go:14-20 *)
Definition shiftP (count : Z) (fill : V) (i o : nat) : proc := sendAll o (repeat fill (Z.to_nat count)) (pipeP i o).
(** Skip.go:13-19: the receives of the loop ignore whether the channel is closed *)
Fixpoint skipN (n : nat) (i : nat) (k : proc) : proc :=
  match n with O => k | S n' => Recv i (fun _ => skipN n' i k) end.
Definition skipP (count : Z) (i o : nat) : proc := skipN (Z.to_nat count) i (pipeP i o).
(** Drain.go:4-11, followed by [k] *)
CoFixpoint drainP (i : nat) (k : proc) : proc :=
  Recv i (fun n => match n with Some _ => drainP i k | None => k end).
(** Operate.go:8-26; the operation may carry a variable of its own (as SmaT's does), its value is [st] *)
CoFixpoint operateP (S : Type) (op : S -> V -> V -> S * V) (st : S) (a b o : nat) : proc :=
  Recv a (fun an => match an with
    | None => drainP b (Close o (Done Quiet))
    | Some an => Recv b (fun bn => match bn with
        | None => drainP a (Close o (Done Quiet))
        | Some bn => let '(st', r) := op st an bn in Send o r (operateP op st' a b o)
        end)
    end).
(** Duplicate.go:27-37: deferred closes run last in, first out.  [todo] are the
    outputs the value [v] still has to be sent to. *)
Fixpoint closeAll (os : list nat) : proc :=
  match os with [] => Done Quiet | o :: r => Close o (closeAll r) end.
CoFixpoint dupSend (i : nat) (os : list nat) (todo : list nat) (v : option V) : proc :=
  match todo, v with
  | o :: r, Some x => Send o x (dupSend i os r v)
  | _, _ => Recv i (fun n => match n with
              | Some n => match os with
                          | [] => Tau (dupSend i os [] None)
                          | o :: r => Send o n (dupSend i os r (Some n))
                          end
              | None => closeAll (rev os)
              end)
  end.
Definition dupP (i : nat) (os : list nat) : proc := dupSend i os [] None.
(** Chan2Slice.go:3-11 run by the caller *)
CoFixpoint collectP (acc : list V) (i : nat) : proc :=
  Recv i (fun n => match n with Some n => collectP (acc ++ [n]) i | None => Done (Slice acc) end).
(** CheckEquals.go:10-37 run by the caller, on the channels paired up (an even
    number of channels); [eqb] is reflect.DeepEqual on the element type *)
CoFixpoint checkP (eqb : V -> V -> bool) (all rest : list (nat * nat)) : proc :=
  match rest with
  | [] => Tau (checkP eqb all all)
  | (a, e) :: r => Recv a (fun x => Recv e (fun y =>
      match x, y with
      | Some u, Some w => if eqb u w then Tau (checkP eqb all r) else Done Failure
      | None, None => Done NoError
      | _, _ => Done Failure
      end))
  end.

(** ** Pipelines: what a caller can build from these functions without
    handing one channel to two readers. *)
Inductive pipe : Type :=
| PSource (n : nat) (xs : list V)             (* a channel of capacity n to which someone sends xs and closes it;
                                                 Slice2Chan(xs) is PSource 0 xs *)
| PApply (f : V -> V) (p : pipe)              (* Apply(p, f) *)
| POperate (op : V -> V -> V) (p q : pipe)    (* Operate(p, q, op) *)
| PShift (count : Z) (fill : V) (p : pipe)    (* Shift(p, count, fill) *)
| PSkip (count : Z) (p : pipe)                (* Skip(p, count) *)
| PPipe (n : nat) (p : pipe)                  (* t := make(chan T, n); go Pipe(p, t) *)
| PSma (zero : V) (add sub : V -> V -> V) (scale : V -> V) (period : Z) (p : pipe).
                                              (* SmaT(period, p) of utils/ta/ta.go:269-284; [scale x] is x / T(period) *)

(** the capacity of the channel a pipeline returns *)
Fixpoint pcap (p : pipe) : Z :=
  match p with
  | PSource n _ => Z.of_nat n
  | PApply _ _ | POperate _ _ _ | PSma _ _ _ _ _ _ => 0%Z
  | PShift count _ p => (pcap p + count)%Z
  | PSkip _ p => pcap p
  | PPipe n _ => Z.of_nat n
  end.
(** no make(chan T, n) with negative n on the way *)
Fixpoint buildable (p : pipe) : Prop :=
  match p with
  | PSource _ _ => True
  | PApply _ p | PSkip _ p | PPipe _ p => buildable p
  | POperate _ p q => buildable p /\ buildable q
  | PShift count _ p => buildable p /\ (0 <= pcap p + count)%Z
  | PSma _ _ _ _ period p => buildable p /\ (0 <= pcap p + period)%Z
  end.
Definition pchan (p : pipe) : chan := mk (Z.to_nat (pcap p)).

(** SmaT's operation: sum = sum + c - b; return sum *)
Definition smaOp (add sub : V -> V -> V) (sum c b : V) : V * V := let s := sub (add sum c) b in (s, s).

(** the entries a pipeline adds to the program, the first of them with number [b];
    its output channel belongs to the last one *)
Fixpoint psize (p : pipe) : nat :=
  match p with
  | PSource _ _ => 1
  | PApply _ p | PSkip _ p | PPipe _ p | PShift _ _ p => S (psize p)
  | POperate _ p q => S (psize p + psize q)
  | PSma _ _ _ _ _ p => psize p + 5
  end.
Fixpoint build (b : nat) (p : pipe) : cfg :=
  let o := b + psize p - 1 in
  match p with
  | PSource n xs => [(mk n, sourceP xs o)]
  | PApply f q => build b q ++ [(pchan p, applyP f (o - 1) o)]
  | POperate op q r => build b q ++ build (b + psize q) r ++
      [(pchan p, operateP (fun (u : unit) x y => (u, op x y)) tt (b + psize q - 1) (o - 1) o)]
  | PShift count fill q => build b q ++ [(pchan p, shiftP count fill (o - 1) o)]
  | PSkip count q => build b q ++ [(pchan p, skipP count (o - 1) o)]
  | PPipe _ q => build b q ++ [(pchan p, pipeP (o - 1) o)]
  | PSma zero add sub scale period q =>
      let d := b + psize q in
      build b q ++
      [ (pchan q, dupP (d - 1) [d; d + 1]);                      (* cs[0], and Duplicate's goroutine *)
        (pchan q, Done Quiet);                                   (* cs[1] of Duplicate *)
        (mk (Z.to_nat (pcap q + period)), shiftP period zero (d + 1) (d + 2));
        (mk 0, operateP (smaOp add sub) zero d (d + 2) (d + 3));
        (mk 0, applyP scale (d + 3) (d + 4)) ]
  end.

(** CheckEquals.go:11-13: an odd number of channels is an error *)
Fixpoint pair_up (cs : list nat) : option (list (nat * nat)) :=
  match cs with
  | [] => Some []
  | [_] => None
  | a :: e :: r => option_map (cons (a, e)) (pair_up r)
  end.
Definition checkEqualsP (eqb : V -> V -> bool) (cs : list nat) : proc :=
  match pair_up cs with None => Done Failure | Some all => checkP eqb all all end.
(** CheckEquals on channels of the given capacities to which the given lists are sent *)
Fixpoint sources (b : nat) (ins : list (nat * list V)) : cfg :=
  match ins with [] => [] | (n, xs) :: r => (mk n, sourceP xs b) :: sources (S b) r end.
Definition checked (eqb : V -> V -> bool) (ins : list (nat * list V)) : cfg :=
  sources 0 ins ++ [(mk 0, checkEqualsP eqb (seq 0 (length ins)))].

(** Duplicate(p, m) with [m] collecting readers, each a goroutine of its own *)
Fixpoint readers (b m : nat) : cfg :=
  match m with O => [] | S m' => (mk 0, collectP [] b) :: readers (S b) m' end.
Definition dup_all (p : pipe) (m : nat) : cfg :=
  let d := psize p in
  build 0 p ++ (pchan p, dupP (d - 1) (seq d m)) :: repeat (pchan p, Done Quiet) (m - 1) ++ readers d m.

(** Duplicate(Slice2Chan(xs), 2), then Chan2Slice of the first copy and after it Chan2Slice of the second *)
CoFixpoint collectThen (i : nat) (k : proc) : proc :=
  Recv i (fun n => match n with Some _ => collectThen i k | None => k end).
Definition dup_seq (xs : list V) : cfg :=
  [ (mk 0, sourceP xs 0); (mk 0, dupP 0 [1; 2]); (mk 0, Done Quiet); (mk 0, collectThen 1 (collectP [] 2)) ].

(** Chan2Slice(p) *)
Definition collected (p : pipe) : cfg := build 0 p ++ [(mk 0, collectP [] (psize p - 1))].
End Chan.
