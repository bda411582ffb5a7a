(** Model of references to the values of a Map, src/include/containers/Map.h, that a client keeps
    while it goes on using the Map.  An entry of a std::map is a node of its own: the functions of
    ContModel run on entries whose value carries the identity of its node, a reference is the
    identity, and using one whose node is gone is [UB]. *)
From Verif Require Import Base ContModel.
Local Open Scope Z_scope.

Section MapRefs.
Context {K V : Type} (lt : K -> K -> bool) (default : V).

(** the entries in key order, the identity of the next node, the references taken; Map.h:175 *)
Record mstore := MStore { entries : list (K * (nat * V)); mnext : nat; mheld : list nat }.
(** calls: set, set with a reference to a value of the same Map, erase, clear, get, keeping the
    reference that get or operator[] returns, reading and writing through a reference; Map.h:205-245 *)
Inductive gop :=
| GSet (k : K) (v : V) | GSetFrom (k : K) (h : nat) | GErase (k : K) | GClear | GGet (k : K)
| GKeep (k : K) | GKeepIndex (k : K) | GRead (h : nat) | GWrite (h : nat) (v : V).
(** the node with an identity; std: it must still be in the map; Map.h:205-225 *)
Definition node_of (st : mstore) (h : nat) : outcome (nat * V) :=
  match nth_error (mheld st) h with
  | None => UB
  | Some id =>
      match find (fun e => Nat.eqb (fst (snd e)) id) (entries st) with
      | Some e => Ok (snd e)
      | None => UB
      end
  end.
(** [privateMap[key]]: a node with the default value is made if there is none; Map.h:222-225 *)
Definition touched (st : mstore) (k : K) : mstore :=
  MStore (map_touch lt (mnext st, default) (entries st) k) (S (mnext st)) (mheld st).
(** assigning to the value inside a node; Map.h:217-225 *)
Definition written (st : mstore) (id : nat) (v : V) : mstore :=
  MStore (map (fun e => if Nat.eqb (fst (snd e)) id then (fst e, (id, v)) else e) (entries st)) (mnext st) (mheld st).
(** a further reference; Map.h:205-225 *)
Definition kept (st : mstore) (n : nat * V) : mstore := MStore (entries st) (mnext st) (mheld st ++ [fst n]).
(** one call; Map.h: get 205-215, set 217-220, operator[] 222-225, clear 237-240, erase 242-245.
    In [privateMap[key] = value] the value may be read before or after the node is made: that
    makes no difference, as making it moves no other node *)
Definition gstep (st : mstore) (o : gop) : outcome (mstore * result V) :=
  match o with
  | GSet k v =>
      let st := touched st k in
      n <- map_get lt (entries st) k ;; Ok (written st (fst n) v, RNone)
  | GSetFrom k h =>
      let st := touched st k in
      n <- map_get lt (entries st) k ;; m <- node_of st h ;; Ok (written st (fst n) (snd m), RNone)
  | GErase k => Ok (MStore (t_erase fst lt k (entries st)) (mnext st) (mheld st), RNone)
  | GClear => Ok (MStore [] (mnext st) (mheld st), RNone)
  | GGet k => n <- map_get lt (entries st) k ;; Ok (st, RVal (snd n))
  | GKeep k => n <- map_get lt (entries st) k ;; Ok (kept st n, RNone)
  | GKeepIndex k => let st := touched st k in n <- map_get lt (entries st) k ;; Ok (kept st n, RNone)
  | GRead h => n <- node_of st h ;; Ok (st, RVal (snd n))
  | GWrite h v => n <- node_of st h ;; Ok (written st (fst n) v, RNone)
  end.
(** a Map as constructed; Map.h:180-183 *)
Definition no_entries : mstore := MStore [] O [].
End MapRefs.
Arguments mstore K V : clear implicits.
Arguments gop K V : clear implicits.
