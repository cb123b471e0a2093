(** Specification of the shared informer: what a handler knows from its
    notifications, and when it is due for a resync. *)
From Verif Require Import Base DeltaFifo_model DeltaFifo_spec Store_model Informer_model SharedInformer_model.

Section spec.
  Context {K O : Type} `{EqDecision K} (keyf : O → option K).
  (** the object with key [k] that a handler believes to exist *)
  Definition view (k : K) (log : list (notif K O)) : option (dobj K O) :=
    foldl (λ c n, match n with
                  | NAdd o _ | NUpdate _ o _ => if decide (has_key keyf k o) then Some o else c
                  | NDelete o => if decide (has_key keyf k o) then None else c
                  end) None log.
  (** a notification that tells nothing new *)
  Definition no_news (n : notif K O) : Prop := ∃ o b, n = NUpdate o o b.
End spec.

Section resync.
  Context {K O : Type} (second dflt : Z).
  Notation hist := (list (hop K O * hres K O)).
  (** the requested period of a registration; zero means never *)
  Definition requested (req : option Z) : Z := match req with Some r => r | None => dflt end.
  (** the requests that count for the check period, none below a second *)
  Definition requests (h : hist) : list Z :=
    omap (λ e : hop K O * hres K O, match e.1 with
            | HRegister req _ => if bool_decide (requested req = 0%Z) then None else Some (Z.max (requested req) second)
            | _ => None
            end) h.
  (** the period of a new handler *)
  Definition effective (started : bool) (check : Z) (req : option Z) : Z :=
    if bool_decide (requested req = 0%Z) || bool_decide (check = 0%Z) then 0%Z
    else let r := Z.max (requested req) second in if started then Z.max r check else r.
  (** the times of the resync checks *)
  Definition checks (h : hist) : list Z := omap (λ e : hop K O * hres K O, match e.1 with HShouldResync t => Some t | _ => None end) h.
  (** the last resync of a handler registered at [t0] with period [p] *)
  Definition last_resync (p t0 : Z) (ts : list Z) : Z := foldl (λ t0 t, if bool_decide (t0 + p <= t)%Z then t else t0) t0 ts.
End resync.

Section telling.
  Context {K O V N : Type}.
  (** listener [i], if registered, is among those told of a Sync notification, or it tells nothing new *)
  Definition told (i : nat) (s : shared K O V N) (r : hres K O) : Prop :=
    ∀ n, r = HI (ICallback n) → is_sync n = true → i < length (p_ls (h_proc s)) → i ∈ p_syncing (h_proc s) ∨ no_news n.
End telling.
