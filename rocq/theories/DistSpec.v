(** Specification: generators and distributions as values.  A distribution either has a
    generator inside it or refers to a generator of the user. *)
From Verif Require Import Base RandModel DistModel.

Section Spec.
Context {G S P R U : Type}.
(** seeding, the user's calls, the constructors' parameter checks, and next() *)
Context (seed : Z -> G) (use : U -> G -> outcome (G * R)) (make : P -> outcome S) (next : S -> G -> outcome (R * S * G)).

Inductive vdist := Own (g : G) (s : S) | Shared (user : nat) (s : S).
(** [None]: lifetime over *)
Record state := State { vgens : list (option G); vdists : list (option vdist) }.
Inductive event :=
| ENewRandom (t : Z) | EEndRandom (j : nat) | EUseRandom (j : nat) (o : U)
| ENewDist (t : Z) (p : P) | ENewDistOn (j : nat) (p : P) | ESetGenerator (i j : nat) | ENext (i : nat) | EEndDist (i : nat).

Definition alive {A} (l : list (option A)) (i : nat) : outcome A :=
  match nth_error l i with Some (Some x) => Ok x | _ => UB end.
Fixpoint replace {A} (l : list A) (i : nat) (x : A) : list A :=
  match l, i with
  | [], _ => []
  | _ :: l, O => x :: l
  | y :: l, Datatypes.S i => y :: replace l i x
  end.

Definition vstep (w : state) (e : event) : outcome (state * option R) :=
  match e with
  | ENewRandom t => Ok (State (vgens w ++ [Some (seed t)]) (vdists w), None)
  | EEndRandom j => _ <- alive (vgens w) j ;; Ok (State (replace (vgens w) j None) (vdists w), None)
  | EUseRandom j o =>
      g <- alive (vgens w) j ;; ' (g, r) <- use o g ;; Ok (State (replace (vgens w) j (Some g)) (vdists w), Some r)
  | ENewDist t p => s <- make p ;; Ok (State (vgens w) (vdists w ++ [Some (Own (seed t) s)]), None)
  | ENewDistOn j p => _ <- alive (vgens w) j ;; s <- make p ;; Ok (State (vgens w) (vdists w ++ [Some (Shared j s)]), None)
  | ESetGenerator i j =>
      d <- alive (vdists w) i ;; _ <- alive (vgens w) j ;;
      Ok (State (vgens w) (replace (vdists w) i (Some (Shared j (match d with Own _ s | Shared _ s => s end)))), None)
  | ENext i =>
      d <- alive (vdists w) i ;;
      match d with
      | Own g s => ' (r, s, g) <- next s g ;; Ok (State (vgens w) (replace (vdists w) i (Some (Own g s))), Some r)
      | Shared j s =>
          g <- alive (vgens w) j ;; ' (r, s, g) <- next s g ;;
          Ok (State (replace (vgens w) j (Some g)) (replace (vdists w) i (Some (Shared j s))), Some r)
      end
  | EEndDist i => _ <- alive (vdists w) i ;; Ok (State (vgens w) (replace (vdists w) i None), None)
  end.
Fixpoint vrun (w : state) (es : list event) : outcome (state * list (option R)) :=
  match es with
  | [] => Ok (w, [])
  | e :: es => ' (w, r) <- vstep w e ;; ' (w, rs) <- vrun w es ;; Ok (w, r :: rs)
  end.

(** the distributions of a history in the order of their construction: with a generator
    of their own, seeded with the time, or with one of the user's *)
Inductive origin := Fresh (t : Z) (p : P) | On (user : nat) (p : P).
Fixpoint origins (es : list event) : list origin :=
  match es with
  | [] => []
  | ENewDist t p :: es => Fresh t p :: origins es
  | ENewDistOn j p :: es => On j p :: origins es
  | _ :: es => origins es
  end.
Definition params_of (o : origin) : P := match o with Fresh _ p | On _ p => p end.
Definition sampler_of (d : vdist) : S := match d with Own _ s | Shared _ s => s end.
(** [n] calls of next() on a distribution that has its generator for itself *)
Fixpoint alone (n : nat) (s : S) (g : G) : outcome (list R * S * G) :=
  match n with
  | O => Ok ([], s, g)
  | Datatypes.S n => ' (r, s, g) <- next s g ;; ' (rs, s, g) <- alone n s g ;; Ok (r :: rs, s, g)
  end.
(** the results of the calls of next() on distribution [i] in a history *)
Fixpoint results_of (i : nat) (es : list event) (rs : list (option R)) : list R :=
  match es, rs with
  | ENext j :: es, Some r :: rs => if Nat.eqb i j then r :: results_of i es rs else results_of i es rs
  | _ :: es, _ :: rs => results_of i es rs
  | _, _ => []
  end.
Definition is_own (d : option vdist) : bool := match d with Some (Own _ _) => true | _ => false end.
Definition is_some {A} (o : option A) : bool := match o with Some _ => true | None => false end.
(** neither re-bound nor destroyed *)
Definition keeps (i : nat) (e : event) : Prop :=
  match e with ESetGenerator k _ => k <> i | EEndDist k => k <> i | _ => True end.
Definition not_rebound (i : nat) (e : event) : Prop :=
  match e with ESetGenerator k _ => k <> i | _ => True end.
(** number of generators that exist: the user's and those inside distributions *)
Definition live (w : state) : nat :=
  length (filter is_some (vgens w)) + length (filter is_own (vdists w)).
End Spec.

(** the calls of the interface, one event each *)
Definition ev (o : op) : @event params rop :=
  match o with
  | NewRandom t => ENewRandom t | EndRandom j => EEndRandom j | UseRandom j o => EUseRandom j o
  | NewDist t p => ENewDist t p | NewDistOn j p => ENewDistOn j p | SetGenerator i j => ESetGenerator i j
  | Next i => ENext i | EndDist i => EEndDist i
  end.
(** every next() of distribution [i] replaced by a call on the user's generator [j] *)
Definition direct (i j : nat) (u : rop) (o : op) : op :=
  match o with Next k => if Nat.eqb k i then UseRandom j u else o | _ => o end.
(** the call of class Random that a function of random_functions.h stands for *)
Definition method (c : fcall) : rop :=
  match c with
  | FInt => RIntAll | FIntMax max => RIntMax max | FIntRange min max => RInt min max
  | FDoubleRange min max => RDouble min max | FDoubleMax max => RDoubleMax max | FDouble => RDouble1 | FBool => RBool
  end.
