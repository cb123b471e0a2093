(** Vocabulary for objects under a lock. *)
From Coq Require Import Sorted.
From Verif Require Import Base FakeSource_model AsyncLock_model.

Section spec.
  Context {St Op R L : Type} (enter : St → Op → St * part R L) (resume : St → L → St * part R L) (keeps : Op → bool).
  (** a section on its own: the first parts, from a state, up to what the last of them did *)
  Inductive parts (s : St) (o : Op) : St → part R L → Prop :=
  | parts_enter s' p : enter s o = (s', p) → parts s o s' p
  | parts_resume s1 l s2 p : parts s o s1 (PAwait l) → resume s1 l = (s2, p) → parts s o s2 p.
  (** a call on its own *)
  Definition alone (s : St) (o : Op) (x : outcome R) (s' : St) : Prop :=
    match x with OReturned r => parts s o s' (PReturn r) | OAborted => ∃ l, parts s o s' (PAwait l) end.
  (** calls one after another *)
  Inductive serial : St → list (nat * Op * outcome R) → St → Prop :=
  | serial_nil s : serial s [] s
  | serial_snoc s h s1 t o x s2 : serial s h s1 → alone s1 o x s2 → serial s (h ++ [(t, o, x)]) s2.

  Notation lst := (lst St Op R L).
  (** the calls whose sections ended; that of the section that is under way; those still waiting, but for the ones cancelled while the lock was not theirs *)
  Definition ended (s : lst) : list nat := (λ x, x.1.1) <$> l_log s.
  Definition inside (s : lst) : list nat := match l_held s with Some (t, _, _) => [t] | None => [] end.
  Definition waiting (s : lst) : list nat := w_call <$> l_waiters s.
  Definition live (s : lst) : list nat := w_call <$> filter (λ w, is_cancelled w = false) (l_waiters s).
  (** call t got the lock *)
  Definition got_lock (s : lst) (t : nat) : Prop := t ∈ ended s ++ inside s.
  (** the call t of a method that keeps the lock got it *)
  Definition kept (s : lst) (t : nat) : Prop := ∃ o, keeps o = true ∧ ((∃ x, (t, o, x) ∈ l_log s) ∨ ∃ l, l_held s = Some (t, o, l)).
  (** the calls made, in order *)
  Definition calls (ls : list (label Op)) : list Op := omap (λ l, match l with LCall o => Some o | _ => None end) ls.
  (** a waiter that was not cancelled *)
  Definition wants (w : waiter Op) : Prop := w_fut w = FPending ∨ w_fut w = FResult false.
  (** no section awaits anything, and none keeps the lock *)
  Definition no_await (step : St → Op → St * R) : Prop := (∀ s o, enter s o = ((step s o).1, PReturn (step s o).2)) ∧ ∀ o, keeps o = false.
End spec.

(** ** The fake source *)
Section source.
  Context {K V : Type}.
  (** what calls of the source do, as calls of a source without tasks: a cancelled change is one that watchers do not see,
      a cancelled watch is none, or one whose watcher nobody has *)
  Inductive seen : nat * sop V * outcome (sres K V) → list (fop V * fres K V) → Prop :=
  | seen_returned t o r : seen (t, SOp o, OReturned (SRes r)) [(o, r)]
  | seen_change t ty r v : seen (t, SOp (FChange ty r v false), OAborted) [(FChange ty r v true, FDone)]
  | seen_watch_no t rc : seen (t, SOp (FWatch rc), OAborted) []
  | seen_watch t rc w : seen (t, SOp (FWatch rc), OAborted) [(FWatch rc, FWatching w)]
  | seen_shutdown t x : seen (t, SShutdown, x) [].
End source.

(** ** Cases *)
Definition own (r : nat) : nat := r.
Notation add3 := (SOp (FChange EAdded 3 10 false)).
(** a watch; a change, meanwhile a list, another change and a second list, of which the change is cancelled *)
Definition busy_trace : list (label (sop nat)) :=
  [LCall (SOp (FWatch 0)); LResume; LResume; LCall add3; LCall (SOp FList); LCall (SOp (FChange EDeleted 3 10 false)); LCall (SOp FList); LCancel 3; LResume; LRun 2; LRun 3; LRun 4].
(** a change cancelled while the queue of the broadcaster is full; a watch cancelled while it waits for its watcher *)
Definition cut_trace : list (label (sop nat)) := [LCall (SOp (FWatch 0)); LResume; LResume; LCall add3; LAbort; LCall (SOp FList); LCall (SOp (FWatch 0)); LResume; LAbort].
(** shutdown, and a list *)
Definition shut_trace : list (label (sop nat)) := [LCall add3; LCall SShutdown; LCall (SOp FList); LResume; LRun 1; LResume].
