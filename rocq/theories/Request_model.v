(** Model of the requests an informer of the cache sends: aiok8s/controller/_informers_map.py:87-111
    ([_create_structured_list_watch], [_get_kwargs]), aiok8s/cache/list_watch.py (which hands
    options on), aiok8s/controller/client.py:40-42, 51-60, and the options of
    aiok8s/cache/reflector.py:55, 86-93, 230, on top of the reflector (Reflector_model.v) and the
    client registry (Client_model.v).

    - A request is the client class it is made with, the method of the API and the keyword arguments.
      Every client class selects its method as _PodClient does (56-60); it is the only one in the code.
    - The attributes read on the way exist: calling the client class (68) does not fail.
    - random.random() answers k/2^53 for a natural k < 2^53; the sum and the product on line 89 are
      rounded to doubles (53 bits, half to even). *)
From Verif Require Import Base Client_model KeyFunc_model Reflector_model.
From Coq Require Import Strings.String.
From stdpp Require Import strings.

(** n / d, rounded to the nearest integer, half to even *)
Definition div_even (n d : Z) : Z :=
  let q := (n / d)%Z in
  let r := (n mod d)%Z in
  if (2 * r <? d)%Z then q else if (d <? 2 * r)%Z then (q + 1)%Z else if Z.even q then q else (q + 1)%Z.
(** n rounded to 53 bits *)
Definition round53 (n : Z) : Z :=
  let e := (Z.log2 n - 52)%Z in
  if (e <=? 0)%Z then n else (div_even n (2 ^ e) * 2 ^ e)%Z.
(** reflector.py:255 *)
Definition min_watch_timeout : Z := (5 * 60)%Z.
(** reflector.py:89, with random.random() = k/2^53; every number here is counted in units of 2^-53 *)
Definition timeout_seconds (k : Z) : Z := (round53 (min_watch_timeout * round53 (k + 2 ^ 53)) / 2 ^ 53)%Z.

Section request.
  Context {G T O RV S : Type} `{EqDecision G, EqDecision T}.

  (** values of keyword arguments: a text of the code, a namespace, a number, a version from the server (None: the initial "") *)
  Inductive value := VText (t : string) | VNamespace (n : string) | VInt (z : Z) | VVersion (rv : option RV).
  Notation kwargs := (dict string value).
  Inductive method := MNamespaced | MAllNamespaces.
  Record request := Request { q_watch : bool; q_client : nat; q_method : method; q_kwargs : kwargs }.

  (** bool(namespace) *)
  Definition truthy (ns : option string) : option string :=
    match ns with Some n => if decide (n = ""%string) then None else Some n | None => None end.
  (** _informers_map.py:107-111 *)
  Definition get_kwargs (ns : option string) (options : kwargs) : kwargs :=
    match truthy ns with Some n => dset "namespace"%string (VNamespace n) options | None => options end.
  (** client.py:56-60 *)
  Definition get_lister (ns : option string) : method := match truthy ns with Some _ => MNamespaced | None => MAllNamespaces end.
  (** _informers_map.py:88-92 and 94-98 with client.py:40-42; None: the client lookup raises *)
  Definition list_func (reg : registry G T) (g : G) (ns : option string) (options : kwargs) : option request :=
    match rest_client_for_gvk g reg with
    | CClient c => Some (Request false c (get_lister ns) (get_kwargs ns options))
    | _ => None
    end.
  Definition watch_func (reg : registry G T) (g : G) (ns : option string) (options : kwargs) : option request :=
    match rest_client_for_gvk g reg with
    | CClient c => Some (Request true c (get_lister ns) (get_kwargs ns options))
    | _ => None
    end.
  (** reflector.py:55 *)
  Definition list_options : kwargs := [("resource_version"%string, VText "0")].
  (** reflector.py:86, 91, 230 *)
  Definition watch_options (rv : option RV) (k : Z) : kwargs :=
    dset "timeout_seconds"%string (VInt (timeout_seconds k)) [("resource_version"%string, VVersion rv)].

  (** the call of the lister/watcher that an input answers (reflector.py:57, 93); k: the random number drawn *)
  Definition sent (reg : registry G T) (g : G) (ns : option string) (r : refl RV) (i : rinput O RV) (k : Z) : option request :=
    match i, r_pc r with
    | (IListFails | IList _ _), RIdle => list_func reg g ns list_options
    | (IWatchFails | IWatch), RReady => watch_func reg g ns (watch_options (r_opt r) k)
    | _, _ => None
    end.
  (** if the lookup of the client fails so does the call: it has no other answer *)
  Definition answered (reg : registry G T) (g : G) (i : rinput O RV) : bool :=
    match i with
    | IList _ _ | IWatch => match rest_client_for_gvk g reg with CClient _ => true | _ => false end
    | _ => true
    end.

  (** an informer of kind g of a cache for a namespace: the reflector, and the registry, to which classes may be added *)
  Record qstate := QState { q_refl : refl RV; q_store : S; q_reg : registry G T }.
  Inductive qinput := QIn (i : rinput O RV) (k : Z) | QReg (o : cop G T).
  Inductive qoutput := QSent (q : option request) (out : list (routput O RV)) | QRes (r : cres G) | QImpossible.
  Definition qstep (cfg : rcfg O RV) (so : sops O RV S) (g : G) (ns : option string) (x : qstate) (i : qinput) : qstate * qoutput :=
    match i with
    | QReg o => let '(reg, res) := cstep (q_reg x) o in (QState (q_refl x) (q_store x) reg, QRes res)
    | QIn i k =>
        if answered (q_reg x) g i then
          let '((r, s), out) := rstep cfg so (q_refl x, q_store x) i in
          (QState r s (q_reg x), QSent (sent (q_reg x) g ns (q_refl x) i k) out)
        else (x, QImpossible)
    end.
  Definition q_init (s : S) : qstate := QState refl_init s reg_init.
End request.
Arguments value : clear implicits.
Arguments request : clear implicits.
Arguments qstate : clear implicits.
Arguments qinput : clear implicits.
Arguments qoutput : clear implicits.
