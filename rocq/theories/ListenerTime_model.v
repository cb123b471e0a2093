(** Model of how long a listener pauses after its handler raised: _ProcessListener._run,
    aiok8s/cache/shared_informer.py:392-400, on top of Listener_model.v.

    - Times are integers in an arbitrary unit, of which a second has [sec]; [res] is the resolution of the
      event loop's clock (see RealTime_model.v: a sleep ends once deadline < time + res, or any time later).
    - The event loop's clock never goes back.  Every other step may take any time. *)
From Verif Require Import Base Listener_model.
From Coq Require Import ZArith.

Section listener_time.
  Context {N : Type} (sec res : Z).

  Record tlis := TLis {
    t_lis : lis N;
    t_now : Z;                 (* the event loop's clock *)
    t_wake : Z                 (* deadline of the sleep in 398 *)
  }.
  Definition t_init (t : Z) : tlis := TLis lis_init t t.
  Inductive tlabel := TPass (t : Z) | TDo (l : llabel N) (t : Z).
  Inductive tstep (s : tlis) : tlabel → tlis → Prop :=
  | t_pass t : (t_now s <= t)%Z → tstep s (TPass t) (TLis (t_lis s) t (t_wake s))
  | t_do l x : lstep (t_lis s) l x →
      (* asyncio.sleep(60) returns, 398 *)
      (l = LSlept → (t_wake s < t_now s + res)%Z) →
      tstep s (TDo l (t_now s)) (TLis x (t_now s) (match l with LRaise => (t_now s + 60 * sec)%Z | _ => t_wake s end)).
End listener_time.
Arguments tlis : clear implicits.
Arguments tlabel : clear implicits.
