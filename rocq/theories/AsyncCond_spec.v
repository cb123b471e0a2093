(** Vocabulary for objects under a condition. *)
From Verif Require Import Base WorkQueue_model WorkQueueSched_model Fifo_model FifoSched_model DeltaFifo_model DeltaFifoSched_model AsyncCond_model.

Section spec.
  Context {St Op R L E : Type}.
  Context (enter : St → Op → St * part R L * notif) (resume : St → L → E → St * part R L * notif) (direct : Op → bool).

  (** what a condition should be: sections one at a time; tasks that wait, in order; tasks that are
      to go on, in any order; a cancelled task is out at once *)
  Record ast := ASt { a_obj : St; a_waiting : list (nat * Op); a_ready : list (nat * Op); a_held : option (nat * Op * L) }.
  Definition ideal_init (s : St) : ast := ASt s [] [] None.
  Inductive alabel :=
  | ACall (t : nat) (o : Op) (p : part R L)    (* a call proceeds at once *)
  | AQueue (t : nat) (o : Op)                  (* a call has to wait for its turn *)
  | AGo (t : nat) (o : Op) (p : part R L)      (* a task's turn *)
  | AResume (t : nat) (o : Op) (e : E) (p : part R L)
  | ACancel (t : nat).
  Definition woken (n : notif) (w r : list (nat * Op)) : list (nat * Op) * list (nat * Op) :=
    match n with
    | NoNotify => (w, r)
    | NotifyOne => match w with [] => ([], r) | x :: w => (w, r ++ [x]) end
    | NotifyAll => ([], r ++ w)
    end.
  Definition aturn (t : nat) (o : Op) (x : St) (p : part R L) (n : notif) (w r : list (nat * Op)) (h : option (nat * Op * L)) : ast :=
    match p with
    | PReturn _ => ASt x (woken n w r).1 (woken n w r).2 h
    | PAwait l => ASt x (woken n w r).1 (woken n w r).2 (Some (t, o, l))
    | PWait => ASt x ((woken n w r).1 ++ [(t, o)]) (woken n w r).2 h
    end.
  Inductive atrans : ast → alabel → ast → Prop :=
  | at_call a t o x p n : enter (a_obj a) o = (x, p, n) → (direct o = true ∧ n = NoNotify ∧ (∃ r, p = PReturn r) ∨ direct o = false ∧ a_held a = None) →
      atrans a (ACall t o p) (aturn t o x p n (a_waiting a) (a_ready a) (a_held a))
  | at_queue a t o : direct o = false → atrans a (AQueue t o) (ASt (a_obj a) (a_waiting a) (a_ready a ++ [(t, o)]) (a_held a))
  | at_go a t o r1 r2 x p n : a_held a = None → a_ready a = r1 ++ (t, o) :: r2 → enter (a_obj a) o = (x, p, n) →
      atrans a (AGo t o p) (aturn t o x p n (a_waiting a) (r1 ++ r2) (a_held a))
  | at_resume a t o l e x p n : a_held a = Some (t, o, l) → resume (a_obj a) l e = (x, p, n) →
      atrans a (AResume t o e p) (aturn t o x p n (a_waiting a) (a_ready a) None)
  | at_cancel_waiting a t o w1 w2 : a_waiting a = w1 ++ (t, o) :: w2 → atrans a (ACancel t) (ASt (a_obj a) (w1 ++ w2) (a_ready a) (a_held a))
  | at_cancel_ready a t o r1 r2 : a_ready a = r1 ++ (t, o) :: r2 → atrans a (ACancel t) (ASt (a_obj a) (a_waiting a) (r1 ++ r2) (a_held a)).

  Notation cst := (cst St Op R L).
  (** the tasks that wait to be notified, in order; those that are to go on: notified, or asking for the lock, and not cancelled *)
  Definition to_notify (s : cst) : list (nat * Op) := omap (λ w, match cw_fut w with FPending => Some (cw_task w, cw_op w) | _ => None end) (c_condq s).
  Definition notified (s : cst) : list (nat * Op) := omap (λ w, match cw_fut w with FResult false => Some (cw_task w, cw_op w) | _ => None end) (c_condq s).
  Definition lw_live (w : lwaiter Op) : bool :=
    match lw_mode w, lw_fut w with
    | MAgain true, _ | _, FCancelled | _, FResult true => false
    | _, _ => true
    end.
  Definition asking (s : cst) : list (nat * Op) := omap (λ w, if lw_live w then Some (lw_task w, lw_op w) else None) (c_lockq s).
  Definition agrees (s : cst) (a : ast) : Prop :=
    a_obj a = c_obj s ∧ a_waiting a = to_notify s ∧ a_ready a ≡ₚ notified s ++ asking s ∧ a_held a = c_held s.

  (** the tasks that wait for the lock; for the condition *)
  Definition at_lock (s : cst) : list nat := lw_task <$> c_lockq s.
  Definition at_cond (s : cst) : list nat := cw_task <$> c_condq s.
  (** the task that is inside its section *)
  Definition inside (s : cst) : list nat := match c_held s with Some (t, _, _) => [t] | None => [] end.
  Definition suspended (s : cst) (t : nat) : Prop := t ∈ at_lock s ++ at_cond s.
  (** the event loop has no task to run *)
  Definition at_rest (s : cst) : Prop := ∀ t s', ¬ cstep enter resume direct s (KRun t) s'.
  (** no section awaits anything but the condition *)
  Definition no_await : Prop := (∀ s o x l n, enter s o ≠ (x, PAwait l, n)) ∧ ∀ s l e x l' n, resume s l e ≠ (x, PAwait l', n).
End spec.
Arguments ast : clear implicits.
Arguments alabel : clear implicits.

Section traces.
  Context {Op R L E : Type}.
  (** what returned, in order; what was called, in order *)
  Definition results (ls : list (alabel Op R L E)) : list (nat * R) :=
    omap (λ l, match l with ACall t _ (PReturn r) | AGo t _ (PReturn r) | AResume t _ _ (PReturn r) => Some (t, r) | _ => None end) ls.
  Definition begun (ls : list (alabel Op R L E)) : list (nat * Op) :=
    omap (λ l, match l with ACall t o _ | AQueue t o => Some (t, o) | _ => None end) ls.
  Definition calls (ls : list (clabel Op E)) : list Op := omap (λ l, match l with KCall o => Some o | _ => None end) ls.
  (** who entered its section, in order *)
  Definition entered (direct : Op → bool) (ls : list (alabel Op R L E)) : list nat :=
    omap (λ l, match l with ACall t o _ => if direct o then None else Some t | AGo t _ _ => Some t | _ => None end) ls.
  Definition queues (l : alabel Op R L E) : Prop := ∃ t o, l = AQueue t o.
End traces.

(** what returned in the executions of WorkQueueSched, FifoSched and DeltaFifoSched *)
Section returned.
  Context {A K O T : Type}.
  Definition wreturned (ls : list (slabel A)) : list (wres A) :=
    omap (λ l, match l with LGet _ RBlocked | LRun _ RBlocked => None | LCall _ r | LGet _ r | LRun _ r => Some r | _ => None end) ls.
  Definition freturned (ls : list (flabel K O T)) : list (T * fres K O) :=
    omap (λ l, match l with YCall t _ FBlocked | YResume t FBlocked => None | YCall t _ r | YResume t r => Some (t, r) | _ => None end) ls.
  Definition zends (r : dres K O) : bool := match r with DBlocked | DPopped _ => false | _ => true end.
  Definition zreturned (ls : list (zlabel K O T)) : list (T * dres K O) :=
    omap (λ l, match l with ZCall t _ r | ZGo t _ r | ZFinish t _ r => if zends r then Some (t, r) else None | _ => None end) ls.
End returned.

(** the examples *)
Definition okey (o : nat * nat) : option nat := Some o.1.
Definition dnew (k v : nat) : dobj nat (nat * nat) := DObj (k, v).
