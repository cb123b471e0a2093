(** A reflector whose watches run as in WatchLoop_model.v, connected to a server: aiok8s/cache/reflector.py:44-111, 143-248.
    - Versions are the numbers of changes made so far, as in World_model.v; the reflector treats them as opaque.
    - A list (57-61) answers the content at some version; its replacement of the store succeeds or fails as a whole.
    - A watch starts after the version asked for; get_events reads the changes in order, in batches of any size, with
      bookmarks and events that the handler does not accept anywhere between them.  It may read ahead of the handler,
      and the server may be ahead of what was read. *)
From Verif Require Import Base KeyFunc_model Reflector_model Store_model Reflector_spec WatchLoop_model.

Section feed.
  Context {K O St : Type} `{EqDecision K} (keyf : O → option K) (g : rcfg O nat) (q : sops O nat St).

  (** what a stream at position [c] of the changes can deliver, and its position after that *)
  Inductive feeds (cs : list (event O)) : nat → list (event O) → nat → Prop :=
  | feeds_nil c : feeds cs c [] c
  | feeds_change c e es c' : cs !! c = Some e → feeds cs (S c) es c' → feeds cs c (e :: es) c'
  | feeds_other c e es c' : (∀ rv, ¬ accepted g e rv) ∨ (e_type e = EvBookmark ∨ e_type e = EvUnknown) ∧ accepted g e c →
      feeds cs c es c' → feeds cs c (e :: es) c'.

  (** about to list, with the store and the last version; or after a list at this version *)
  Inductive fat := FIdle (x : St) (last : option nat) | FIn (base : nat) (s : wstate O nat St).
  Record fed := Fed { f_changes : list (event O); f_cursor : nat; f_at : fat }.
  Definition fed_init (x : St) : fed := Fed [] 0 (FIdle x None).

  Inductive flabel := FChange (e : event O) | FLoop (l : wlabel O) | FReturn | FList (items : list O) (v : nat).
  Definition cursor_next (cs : list (event O)) (c : nat) (s : wstate O nat St) (l : wlabel O) (c' : nat) : Prop :=
    match l with
    | WWatch true => c' = default 0 (w_opt s)
    | WRead es _ => feeds cs c es c'
    | _ => c' = c
    end.
  Inductive fstep : fed → flabel → fed → Prop :=
  | f_change cs c a e : good_change keyf g cs e → fstep (Fed cs c a) (FChange e) (Fed (cs ++ [e]) c a)
  | f_loop cs c b s l s' c' : wstep g q s l s' → cursor_next cs c s l c' → fstep (Fed cs c (FIn b s)) (FLoop l) (Fed cs c' (FIn b s'))
  (** 47-51 *)
  | f_return cs c b s : w_pc s = PReturned → fstep (Fed cs c (FIn b s)) FReturn (Fed cs c (FIdle (w_store s) (w_last s)))
  (** 57-62, 64 *)
  | f_list cs c x last items v x' ok : good_list keyf cs items v → so_replace q x items v = (x', ok) →
      fstep (Fed cs c (FIdle x last)) (FList items v) (Fed cs c (if ok then FIn v (w_init v x') else FIdle x' last)).
End feed.
Arguments fat : clear implicits.
Arguments fed : clear implicits.
Arguments flabel : clear implicits.
