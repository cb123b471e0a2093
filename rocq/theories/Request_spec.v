(** Specification of the requests of an informer: C85. *)
From Verif Require Import Base Client_model Client_spec KeyFunc_model Reflector_model Reflector_spec Request_model.
From Coq Require Import Strings.String.
From stdpp Require Import strings.

Section spec.
  Context {G T O RV : Type} `{EqDecision G, EqDecision T}.
  Notation hist := (list (qinput G T O RV * qoutput G O RV)).
  Notation request := (request RV).

  (** an argument of a request *)
  Definition arg (q : request) (name : string) : option (value RV) := dget name (q_kwargs q).
  (** what the server reads: objects of all namespaces, or of the one that is given *)
  Definition selects (q : request) (n : string) : Prop :=
    match q_method q with MAllNamespaces => True | MNamespaced => arg q "namespace" = Some (VNamespace n) end.
  (** the API accepts a request: the namespaced method needs a namespace, the other one knows no such argument; none is given twice *)
  Definition valid (q : request) : Prop :=
    (q_method q = MNamespaced ↔ is_Some (arg q "namespace")) ∧ NoDup (q_kwargs q).*1.
  (** the namespaces a cache is for: those allowed by its setting *)
  Definition wanted (ns : option string) (n : string) : Prop := ns = None ∨ ns = Some ""%string ∨ ns = Some n.

  (** the part of a history that is the reflector's *)
  Definition refl_part (h : hist) : list (rinput O RV * list (routput O RV)) :=
    omap (λ x, match x with (QIn i _, QSent _ out) => Some (i, out) | _ => None end) h.
  (** and the registry's *)
  Definition reg_part (h : hist) : list (cop G T * cres G) :=
    omap (λ x, match x with (QReg o, QRes r) => Some (o, r) | _ => None end) h.

  (** the last request of a watch *)
  Definition last_watch (h : hist) : option request :=
    last (omap (λ x, match x.2 with QSent (Some q) _ => if q_watch q then Some q else None | _ => None end) h).
  (** the server answers a request with objects the request selects; nsof: the namespace of an object *)
  Definition honest (nsof : O → string) (h : hist) : Prop := ∀ h1 i k q out h2, h = h1 ++ (QIn i k, QSent q out) :: h2 →
    match i with
    | IList l _ => ∀ q' o, q = Some q' → o ∈ l → selects q' (nsof o)
    | IEvent e => ∀ q', last_watch h1 = Some q' → selects q' (nsof (e_obj e))
    | _ => True
    end.
  (** objects handed to the store by a call *)
  Definition call_objs (c : routput O RV) : list O :=
    match c with CReplace l _ _ => l | CAdd o _ | CUpdate o _ | CDelete o _ => [o] | CResync _ | CWatch _ | CLast _ => [] end.
End spec.
