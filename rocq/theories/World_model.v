(** A reflector (Reflector_model.v) connected to a server (the environment,
    Reflector_spec.v) and to any store.  Versions are the numbers of changes made
    so far; the reflector treats them as opaque.  [w_base] and [w_applied] are
    ghosts: the version of the last successful list, and the store calls made for
    events since then. *)
From Verif Require Import Base KeyFunc_model Reflector_model Store_model Store_spec Reflector_spec.

Section world.
  Context {K O S : Type} `{EqDecision K} (keyf : O → option K) (g : rcfg O nat) (q : sops O nat S).

  Record world := World {
    w_changes : list (event O);     (* the server *)
    w_cursor : nat;                 (* position of the open watch stream in the changes *)
    w_refl : refl nat;
    w_base : nat;
    w_applied : list (event O)
  }.
  Definition world_init : world := World [] 0 refl_init 0 [].

  Definition out_event (c : routput O nat) : option (event O) :=
    match c with
    | CAdd o _ => Some (Event EvAdded o)
    | CUpdate o _ => Some (Event EvModified o)
    | CDelete o _ => Some (Event EvDeleted o)
    | _ => None
    end.
  (** the world after the reflector did [out] and is in state [r] *)
  Definition observe (w : world) (cursor : nat) (r : refl nat) (out : list (routput O nat)) : world :=
    match out with
    | [CReplace _ v true] => World (w_changes w) cursor r v []
    | _ => World (w_changes w) cursor r (w_base w) (w_applied w ++ omap out_event out)
    end.
  (** inputs other than the delivery of a change that the server, the network and the timers may produce *)
  Definition served (w : world) (i : rinput O nat) : Prop :=
    match i with
    | IList items v => good_list keyf (w_changes w) items v
    | IEvent e => ((e_type e = EvBookmark ∨ e_type e = EvUnknown) ∧ accepted g e (w_cursor w)) ∨ ∀ rv, ¬ accepted g e rv
    | _ => True
    end.
  Definition cursor_after (w : world) (i : rinput O nat) : nat :=
    match i with IWatch => default 0 (r_opt (w_refl w)) | _ => w_cursor w end.

  Inductive wlabel := WChange (e : event O) | WDeliver (e : event O) | WInput (i : rinput O nat).
  Inductive wstep : world * S → wlabel → world * S → Prop :=
  | w_change w s e : good_change keyf g (w_changes w) e →
      wstep (w, s) (WChange e) (World (w_changes w ++ [e]) (w_cursor w) (w_refl w) (w_base w) (w_applied w), s)
  | w_deliver w s e r s' out : w_changes w !! w_cursor w = Some e → rstep g q (w_refl w, s) (IEvent e) = ((r, s'), out) →
      wstep (w, s) (WDeliver e) (observe w (w_cursor w + 1) r out, s')
  | w_input w s i r s' out : served w i → rstep g q (w_refl w, s) i = ((r, s'), out) →
      wstep (w, s) (WInput i) (observe w (cursor_after w i) r out, s').
End world.
Arguments world : clear implicits.
Arguments wlabel : clear implicits.

(** the store of Store_model.v as the reflector's target *)
Section plain.
  Context {K O V N : Type} `{EqDecision K} `{EqDecision V} `{EqDecision N} (keyf : O → option K).
  Definition returned (x : store K O V N * sres K O V N) : store K O V N * bool :=
    (x.1, match x.2 with SNone => true | _ => false end).
  Definition plain_sops : sops O nat (store K O V N) :=
    Sops (λ s l _, returned (sstep keyf s (SReplace l))) (λ s o, returned (sstep keyf s (SAdd o)))
         (λ s o, returned (sstep keyf s (SUpdate o))) (λ s o, returned (sstep keyf s (SDelete o)))
         (λ s, returned (sstep keyf s SResync)).
End plain.
