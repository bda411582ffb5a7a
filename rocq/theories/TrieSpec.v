(** What a user expects of a [Trie]: a finite set of words.  The only references to the
    model are the public operations of a single trie and the client programs below. *)
From Verif Require Import Base TrieModel.
Local Open Scope Z_scope.

Definition word_dec : forall a b : bytes, {a = b} + {a <> b} := list_eq_dec ascii_dec.
Definition memb (w : bytes) (S : list bytes) : bool := if in_dec word_dec w S then true else false.

(** the operations of a client *)
Inductive op := Insert (w : bytes) | Remove (w : bytes) | Contain (w : bytes).
Definition op_word (o : op) : bytes := match o with Insert w | Remove w | Contain w => w end.

(** the mathematical set, as a list without repetitions *)
Definition set_step (S : list bytes) (o : op) : list bytes :=
  match o with
  | Insert w => if memb w S then S else w :: S
  | Remove w => filter (fun v => if word_dec v w then false else true) S
  | Contain _ => S
  end.
Fixpoint set_run (S : list bytes) (ops : list op) : list bytes :=
  match ops with [] => S | o :: ops => set_run (set_step S o) ops end.
(** the answers of [Contain], in order *)
Fixpoint answers (S : list bytes) (ops : list op) : list bool :=
  match ops with
  | [] => []
  | Contain w :: ops => memb w S :: answers S ops
  | o :: ops => answers (set_step S o) ops
  end.
(** every removal is of a word present at that moment *)
Fixpoint legal (S : list bytes) (ops : list op) : Prop :=
  match ops with
  | [] => True
  | o :: ops => match o with Remove w => In w S | _ => True end /\ legal (set_step S o) ops
  end.

(** A character map in the sense of Trie.h:83-91 with at most 27 codes: on the symbols
    [sigma] it returns different codes from 1 to 27, and 1 for the end mark. *)
Definition adapter (f : ascii -> outcome Z) (sigma : ascii -> Prop) : Prop :=
  f endChar = Ok 1 /\ ~ sigma endChar /\
  (forall c, sigma c -> exists k, f c = Ok k /\ 2 <= k <= 27) /\
  (forall a b, sigma a -> sigma b -> f a = f b -> a = b).
Definition lower (c : ascii) : Prop := 97 <= charZ c <= 122.
Definition over (sigma : ascii -> Prop) (ops : list op) : Prop := Forall (fun o => Forall sigma (op_word o)) ops.

(** a client running a list of operations on a trie *)
Definition step (f : ascii -> outcome Z) (t : trie) (o : op) : outcome (trie * list bool) :=
  match o with
  | Insert w => t <- insert f f t w ;; Ok (t, [])
  | Remove w => t <- remove f t w ;; Ok (t, [])
  | Contain w => b <- contain f t w ;; Ok (t, [b])
  end.
Fixpoint run (f : ascii -> outcome Z) (t : trie) (ops : list op) : outcome (trie * list bool) :=
  match ops with
  | [] => Ok (t, [])
  | o :: ops => '(t, a) <- step f t o ;; '(t, b) <- run f t ops ;; Ok (t, a ++ b)
  end.
Definition client f ops := t <- mkTrie ;; run f t ops.

(** Several tries alive at once (Trie.h:159, Trie.cpp:52-62): the static map is that of
    the trie constructed last; each trie keeps the map given to its own constructor. *)
Record world := World { w_static : ascii -> outcome Z; w_tries : list ((ascii -> outcome Z) * trie) }.
Inductive wop := New (f : ascii -> outcome Z) | On (i : nat) (o : op).
Definition step2 (st own : ascii -> outcome Z) (t : trie) (o : op) : outcome (trie * list bool) :=
  match o with
  | Insert w => t <- insert st own t w ;; Ok (t, [])
  | Remove w => t <- remove st t w ;; Ok (t, [])
  | Contain w => b <- contain st t w ;; Ok (t, [b])
  end.
Definition wstep (W : world) (o : wop) : outcome (world * list bool) :=
  match o with
  | New f => t <- mkTrie ;; Ok (World f (w_tries W ++ [(f, t)]), [])
  | On i o => match nth_error (w_tries W) i with
              | None => Err
              | Some (f, t) => '(t, a) <- step2 (w_static W) f t o ;;
                               Ok (World (w_static W) (upd (w_tries W) i (f, t)), a)
              end
  end.
Fixpoint wrun (W : world) (ops : list wop) : outcome (world * list bool) :=
  match ops with
  | [] => Ok (W, [])
  | o :: ops => '(W, a) <- wstep W o ;; '(W, b) <- wrun W ops ;; Ok (W, a ++ b)
  end.
(** one independent set per trie *)
Definition sets_step (L : list (list bytes)) (o : wop) : list (list bytes) :=
  match o with
  | New _ => L ++ [[]]
  | On i o => match nth_error L i with None => L | Some X => upd L i (set_step X o) end
  end.
Fixpoint sets_run (L : list (list bytes)) (ops : list wop) : list (list bytes) :=
  match ops with [] => L | o :: ops => sets_run (sets_step L o) ops end.
Fixpoint wanswers (L : list (list bytes)) (ops : list wop) : list bool :=
  match ops with
  | [] => []
  | On i (Contain w) :: ops => (match nth_error L i with None => false | Some X => memb w X end) :: wanswers L ops
  | o :: ops => wanswers (sets_step L o) ops
  end.
(** operations name existing tries, use words over [sigma], remove only present words;
    constructors get the map [f] *)
Fixpoint wlegal (f : ascii -> outcome Z) (sigma : ascii -> Prop) (L : list (list bytes)) (ops : list wop) : Prop :=
  match ops with
  | [] => True
  | o :: ops =>
      match o with
      | New g => g = f
      | On i o => Forall sigma (op_word o) /\
                  match nth_error L i with
                  | None => False
                  | Some X => match o with Remove w => In w X | _ => True end
                  end
      end /\ wlegal f sigma (sets_step L o) ops
  end.

(** order of words: by the codes of their letters, a proper prefix first *)
Fixpoint before (f : ascii -> outcome Z) (a b : bytes) : Prop :=
  match a, b with
  | _, [] => False
  | [], _ :: _ => True
  | x :: a', y :: b' => (exists i j, f x = Ok i /\ f y = Ok j /\ i < j) \/ (x = y /\ before f a' b')
  end.
(** first letters, [None] for the empty word *)
Definition first (w : bytes) : option ascii := match w with [] => None | c :: _ => Some c end.
(** different words of the history differ in their first letter *)
Definition spread (ops : list op) : Prop :=
  forall v w, In (Insert v) ops -> In (Insert w) ops -> first v = first w -> v = w.
