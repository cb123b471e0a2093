(** What a timer or ticker did, read off a trace (oldest first). *)
From Verif Require Import Base RealTime_model.
From Coq Require Import ZArith.
Local Open Scope Z_scope.

(** the ends of sleeps: when, and what time.time() was *)
Definition wakes (tr : list tlabel) : list (Z * Z) := omap (λ l, match l with RWake t w => Some (t, w) | _ => None end) tr.
Definition takes (tr : list tlabel) : list Z := omap (λ l, match l with RTake w => Some w | _ => None end) tr.
Definition began (tr : list tlabel) : list Z := omap (λ l, match l with RBegin t => Some t | _ => None end) tr.
(** the clock after a trace that began at t0 *)
Definition clock_after (t0 : Z) (tr : list tlabel) : Z := foldl (λ t l, match l with RPass t' => t' | _ => t end) t0 tr.

(** the one unread tick: a tick while there is one is dropped *)
Definition unread_step (u : option Z) (l : tlabel) : option Z :=
  match l with RWake _ w => match u with None => Some w | _ => u end | RTake _ => None | _ => u end.
Definition unread (tr : list tlabel) : option Z := foldl unread_step None tr.
(** two consecutive elements *)
Definition adjacent {A} (x y : A) (l : list A) : Prop := ∃ l1 l2, l = l1 ++ x :: y :: l2.
(** when the sleep under way, if any, began *)
Definition last_start (tr : list tlabel) : option Z := match last (wakes tr) with Some (t, _) => Some t | None => last (began tr) end.
