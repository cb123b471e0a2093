(** Specifications for the rate limiters. *)
From Verif Require Import Base RateLimit_model.
From Coq Require Import ZArith QArith Lqa Lia.
Open Scope Q_scope.

Section spec.
  Context {A : Type} `{EqDecision A}.

  (** number of when(x) calls since the last forget(x); newest call first *)
  Fixpoint failures (x : A) (os_newest_first : list (lop A)) : nat :=
    match os_newest_first with
    | [] => 0
    | When y _ :: os => if decide (y = x) then S (failures x os) else failures x os
    | Forget y :: os => if decide (y = x) then 0%nat else failures x os
    | NumRequeues _ :: os => failures x os
    end.
End spec.

(** value of a Python number *)
Definition pyval (b : pynum) : Q := match b with PyInt z => inject_Z z | PyFloat q => q end.

(** ** Token bucket *)
Fixpoint bucket_run (b : bucket) (ts : list Q) : list (Q * Q) :=
  match ts with
  | [] => []
  | t :: ts => (t, (bucket_when b t).2) :: bucket_run (bucket_when b t).1 ts
  end.

(** call times never decrease, and start at or after [t] *)
Fixpoint nondecreasing (t : Q) (ts : list Q) : Prop :=
  match ts with [] => True | t' :: ts => t <= t' /\ nondecreasing t' ts end.

(** release time of a call at [t] told to wait [w] *)
Definition release (c : Q * Q) : Q := c.1 + c.2.
Definition in_window (a b : Q) (c : Q * Q) : bool :=
  Qle_bool a (release c) && Qle_bool (release c) b.

(** [r] is a lawful release time for the last of the calls made at times [ts]
    (newest first): for every earlier call, the calls from that one on are at
    most [burst] plus what flowed in since; and the calls altogether at most
    what flowed in since time 0, at which the bucket was empty. *)
Definition lawful (limit burst : Q) (ts_newest_first : list Q) (r : Q) : Prop :=
  (forall j t, ts_newest_first !! j = Some t ->
     inject_Z (Z.of_nat j + 1) <= burst + limit * (r - t)) /\
  inject_Z (Z.of_nat (length ts_newest_first)) <= limit * r.
