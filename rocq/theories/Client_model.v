(** Model of the client registry: aiok8s/controller/client.py:25-48, 63-68.

    - A class definition deriving from _Client is its attributes, own or inherited, with
      the class, numbered.  Missing attributes are included, as is an object type that
      cannot be hashed; a kind that cannot be hashed acts as a missing one: the first
      use of it raises (28).
    - rest_client_for_gvk also calls the class (68); what its constructor does is not
      modelled, only which class is called. *)
From Verif Require Import Base.

Section client.
  Context {G T : Type} `{EqDecision G, EqDecision T}.

  (** cls.object_type: missing; falsy; a type; one that has no hash *)
  Inductive otype := OMissing | OFalsy | OType (t : T) | OUnhashable (t : T).
  Record cdef := CDef { d_cls : nat; d_gvk : option G; d_type : otype }.
  (** 45-48 *)
  Record registry := Reg {
    r_clients : dict G nat;
    r_types : dict G T;
    r_gvks : dict T G;
    r_unstructured : list G
  }.
  Definition reg_init : registry := Reg [] [] [] [].

  Inductive cop := CDefine (d : cdef) | CGvkFor (t : T) | CClientFor (g : G).
  Inductive cres := CDone | CAssertionError | CAttributeError | CTypeError | CKeyError | CGvk (g : G) | CClient (c : nat).

  (** _Client.__init_subclass__ (26-35) *)
  Definition define (d : cdef) (r : registry) : registry * cres :=
    match d_gvk d with
    | None => (r, CAttributeError)
    | Some g =>
        match dget g (r_clients r) with
        | Some _ => (r, CAssertionError)
        | None =>
            let cs := dset g (d_cls d) (r_clients r) in
            match d_type d with
            | OMissing => (Reg cs (r_types r) (r_gvks r) (r_unstructured r), CAttributeError)
            | OFalsy => (Reg cs (r_types r) (r_gvks r) (r_unstructured r ++ [g]), CDone)
            | OType t => (Reg cs (dset g t (r_types r)) (dset t g (r_gvks r)) (r_unstructured r), CDone)
            | OUnhashable t => (Reg cs (dset g t (r_types r)) (r_gvks r) (r_unstructured r), CTypeError)
            end
        end
    end.
  (** 63-64 *)
  Definition gvk_for_object (t : T) (r : registry) : cres := match dget t (r_gvks r) with Some g => CGvk g | None => CKeyError end.
  (** 67-68 *)
  Definition rest_client_for_gvk (g : G) (r : registry) : cres := match dget g (r_clients r) with Some c => CClient c | None => CKeyError end.

  Definition cstep (r : registry) (o : cop) : registry * cres :=
    match o with
    | CDefine d => define d r
    | CGvkFor t => (r, gvk_for_object t r)
    | CClientFor g => (r, rest_client_for_gvk g r)
    end.
End client.
Arguments otype : clear implicits.
Arguments cdef : clear implicits.
Arguments registry : clear implicits.
Arguments cop : clear implicits.
Arguments cres : clear implicits.
