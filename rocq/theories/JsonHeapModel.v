(** Model of class JSONObject as stored objects: src/json/Json.cpp:244-469 and
    src/include/json/Json.h.  Every JSONObject (variable, map entry or deque entry)
    and every std::map, std::deque and std::string it owns is a cell of a heap.
    References stay valid while their object exists (std::map always, std::deque
    under growth at its end), so a reference is the address of the object.
    Released addresses are not handed out again: any use of one is undefined.
    The number of elements of a deque is assumed to fit an int: an append beyond that
    (more than 2^31 - 1 elements) is outside of the model, outcome [Fuel]. *)
From Verif Require Import Base JsonModel.
Local Open Scope nat_scope.

Section Heap.
Context {F : Type}.

(** a pointer, as stored in the union of Json.h:66-79 *)
Definition addr := nat.
(** objType and the union Data, Json.h:66-79, 563 *)
Inductive node := NNull | NBool (b : bool) | NInt (z : Z) | NFlt (f : F) | NStr (a : addr) | NArr (a : addr) | NObj (a : addr).
(** a JSONObject, std::string, std::deque<JSONObject>, std::map<std::string, JSONObject>
    (in key order); Json.h:67-69 *)
Inductive cell := CNode (n : node) | CStr (s : bytes) | CArr (l : list addr) | CObj (m : list (bytes * addr)).
(** all objects ever allocated, Json.h:66-79; [None] is freed *)
Definition heap := list (option cell).
(** the object at an address (union of Json.h:66-79) *)
Definition look (h : heap) (a : addr) : option cell := nth a h None.
(** reading through a pointer: undefined unless such an object lives there; a JSONObject read through a reference, as in Json.cpp:291-469 *)
Definition rd_node (h : heap) (a : addr) : outcome node := match look h a with Some (CNode n) => Ok n | _ => UB end.
(** [*Data.String] read, Json.h:69 *)
Definition rd_str (h : heap) (a : addr) : outcome bytes := match look h a with Some (CStr s) => Ok s | _ => UB end.
(** [*Data.List] read, Json.h:67 *)
Definition rd_arr (h : heap) (a : addr) : outcome (list addr) := match look h a with Some (CArr l) => Ok l | _ => UB end.
(** [*Data.Map] read, Json.h:68 *)
Definition rd_obj (h : heap) (a : addr) : outcome (list (bytes * addr)) := match look h a with Some (CObj m) => Ok m | _ => UB end.
(** new, a write to an existing object, delete; as in Json.cpp:260-323 *)
Definition alloc (h : heap) (c : cell) : heap * addr := (h ++ [Some c], length h).
(** an assignment to a member, as in Json.cpp:252-353 *)
Definition wr (h : heap) (a : addr) (c : cell) : outcome heap :=
  match look h a with Some _ => Ok (upd h a (Some c)) | None => UB end.
(** [delete] and the end of an element, Json.cpp:291-304 *)
Definition release (h : heap) (a : addr) : outcome heap :=
  match look h a with Some _ => Ok (upd h a None) | None => UB end.

(** destruction of the elements of a container, in order; destructors of std::deque and std::map run by Json.cpp:291-304 *)
Fixpoint each (f : heap -> addr -> outcome heap) (h : heap) (l : list addr) : outcome heap :=
  match l with [] => Ok h | a :: l => h <- f h a ;; each f h l end.
(** clearData, Json.cpp:291-304, for an object with members [n]; deleting a container
    runs ~JSONObject (Json.cpp:258) on its elements.  [n] itself is not changed:
    its pointer dangles afterwards. *)
Fixpoint clear (fuel : nat) (h : heap) (n : node) : outcome heap :=
  match fuel with
  | O => Fuel
  | S fuel =>
      let destroy h a := n <- rd_node h a ;; h <- clear fuel h n ;; release h a in
      match n with
      | NObj c => m <- rd_obj h c ;; h <- each destroy h (map snd m) ;; release h c
      | NArr c => l <- rd_arr h c ;; h <- each destroy h l ;; release h c
      | NStr c => _ <- rd_str h c ;; release h c
      | _ => Ok h
      end
  end.
(** clearData, Json.cpp:291-304 *)
Definition clearData (h : heap) (a : addr) : outcome heap := n <- rd_node h a ;; clear (S (length h)) h n.
(** ~JSONObject and the end of the object's storage, Json.cpp:258 *)
Definition destroy (h : heap) (a : addr) : outcome heap := h <- clearData h a ;; release h a.

(** element-wise copy construction, in order (range constructors, Json.cpp:309-314) *)
Fixpoint copy_all (f : heap -> addr -> outcome (heap * node)) (h : heap) (l : list addr) : outcome (heap * list addr) :=
  match l with
  | [] => Ok (h, [])
  | a :: l =>
      ' (h, n) <- f h a ;;
      let '(h, a') := alloc h (CNode n) in
      ' (h, l) <- copy_all f h l ;; Ok (h, a' :: l)
  end.
(** the copy constructor, Json.cpp:306-323 (and the switch of 336-351): the members
    of a new object; the container is allocated behind its elements *)
Fixpoint copy (fuel : nat) (h : heap) (src : addr) : outcome (heap * node) :=
  match fuel with
  | O => Fuel
  | S fuel =>
      n <- rd_node h src ;;
      match n with
      | NObj c =>
          m <- rd_obj h c ;;
          ' (h, l) <- copy_all (copy fuel) h (map snd m) ;;
          let '(h, c) := alloc h (CObj (combine (map fst m) l)) in Ok (h, NObj c)
      | NArr c =>
          l <- rd_arr h c ;;
          ' (h, l) <- copy_all (copy fuel) h l ;;
          let '(h, c) := alloc h (CArr l) in Ok (h, NArr c)
      | NStr c => s <- rd_str h c ;; let '(h, c) := alloc h (CStr s) in Ok (h, NStr c)
      | n => Ok (h, n)
      end
  end.
(** the copy constructor, Json.cpp:306-323 *)
Definition copyData (h : heap) (src : addr) : outcome (heap * node) := copy (S (length h)) h src.

(** enum Type, Json.h:85 *)
Inductive kind := KNull | KObject | KArray | KString | KFloat | KInt | KBool.
(** comparison of Type values, Json.cpp:260-289 *)
Definition kind_eq_dec (a b : kind) : {a = b} + {a <> b}. Proof. decide equality. Defined.
(** objType, Json.h:563 *)
Definition kind_of (n : node) : kind :=
  match n with NNull => KNull | NBool _ => KBool | NInt _ => KInt | NFlt _ => KFloat
             | NStr _ => KString | NArr _ => KArray | NObj _ => KObject end.
(** setType, Json.cpp:260-289; [fzero] is 0.0 *)
Context (fzero : F).
(** setType, Json.cpp:260-289 *)
Definition setType (h : heap) (a : addr) (k : kind) : outcome heap :=
  n <- rd_node h a ;;
  if kind_eq_dec k (kind_of n) then Ok h
  else
    h <- clearData h a ;;
    let '(h, n) :=
      match k with
      | KNull => (h, NNull)
      | KObject => let '(h, c) := alloc h (CObj []) in (h, NObj c)
      | KArray => let '(h, c) := alloc h (CArr []) in (h, NArr c)
      | KString => let '(h, c) := alloc h (CStr []) in (h, NStr c)
      | KFloat => (h, NFlt fzero)
      | KInt => (h, NInt 0)
      | KBool => (h, NBool false)
      end in
    wr h a (CNode n).

(** std::map::find *)
Fixpoint find_key {V} (m : list (bytes * V)) (k : bytes) : option V :=
  match m with
  | [] => None
  | (k', v) :: m => if bless k k' then None else if bless k' k then find_key m k else Some v
  end.
(** std::map::operator[] on the map in cell [c]: an absent key gets a null object *)
Definition map_at (h : heap) (c : addr) (k : bytes) : outcome (heap * addr) :=
  m <- rd_obj h c ;;
  match find_key m k with
  | Some d => Ok (h, d)
  | None =>
      let '(h, d) := alloc h (CNode NNull) in
      h <- wr h c (CObj (map_set m k d)) ;; Ok (h, d)
  end.
(** operator[](key), Json.cpp:355-364, and at(key), Json.cpp:372 *)
Definition index_key (h : heap) (a : addr) (k : bytes) : outcome (heap * addr) :=
  h <- setType h a KObject ;;
  n <- rd_node h a ;;
  match n with NObj c => map_at h c k | _ => UB end.
(** growth of a deque by [n] null objects; [resize] of the deque, Json.cpp:366-370 *)
Fixpoint grow (h : heap) (l : list addr) (n : nat) : heap * list addr :=
  match n with
  | O => (h, l)
  | S n => let '(h, d) := alloc h (CNode NNull) in grow h (l ++ [d]) n
  end.
(** operator[](int), Json.cpp:366-370, and at(unsigned), Json.cpp:378, whose argument
    is converted to int *)
Definition index_int (h : heap) (a : addr) (i : Z) : outcome (heap * addr) :=
  h <- setType h a KArray ;;
  n <- rd_node h a ;;
  match n with
  | NArr c =>
      l <- rd_arr h c ;;
      ' (h, l) <-
        (if (Z.of_nat (length l) <=? i)%Z then
           s <- chk32 (i + 1) ;;
           let '(h, l) := grow h l (Z.to_nat s - length l) in
           h <- wr h c (CArr l) ;; Ok (h, l)
         else Ok (h, l)) ;;
      d <- aget l i ;; Ok (h, d)
  | _ => UB
  end.

(** a location expression: variable, then operator[]; Json.cpp:355-370 *)
Inductive sel := Key (k : bytes) | Idx (i : Z).
(** an lvalue: a variable followed by operator[], Json.cpp:355-370 *)
Definition loc := (nat * list sel)%type.
(** operator[], Json.cpp:355-370 *)
Definition index (h : heap) (a : addr) (s : sel) : outcome (heap * addr) :=
  match s with Key k => index_key h a k | Idx i => index_int h a i end.
(** a chain of operator[], Json.cpp:355-370 *)
Fixpoint nav (h : heap) (a : addr) (p : list sel) : outcome (heap * addr) :=
  match p with [] => Ok (h, a) | s :: p => ' (h, a) <- index h a s ;; nav h a p end.
(** the variables of the program; a location of an undeclared variable does not compile; evaluation of an lvalue made of operator[], Json.cpp:355-370 *)
Definition locate (h : heap) (vars : list addr) (l : loc) : outcome (heap * addr) :=
  match nth_error vars (fst l) with Some a => nav h a (snd l) | None => UB end.

(** Json.h:205-254: the argument of operator=(T); an integral argument is given by its
    value after the conversion to int *)
Inductive scal := SBool (b : bool) | SInt (z : Z) | SFlt (f : F) | SStr (s : bytes).
(** Json.h:205-254; the returned copy of the object is a temporary that is destroyed
    at once and is not modelled *)
Definition assign (h : heap) (a : addr) (s : scal) : outcome heap :=
  match s with
  | SBool b => h <- setType h a KBool ;; wr h a (CNode (NBool b))
  | SInt z => h <- setType h a KInt ;; wr h a (CNode (NInt z))
  | SFlt f => h <- setType h a KFloat ;; wr h a (CNode (NFlt f))
  | SStr s =>
      h <- setType h a KString ;;
      n <- rd_node h a ;;
      match n with NStr c => wr h c (CStr s) | _ => UB end
  end.
(** constructors from scalars, Json.h:127-171 *)
Definition construct (h : heap) (s : scal) : heap * node :=
  match s with
  | SBool b => (h, NBool b)
  | SInt z => (h, NInt z)
  | SFlt f => (h, NFlt f)
  | SStr s => let '(h, c) := alloc h (CStr s) in (h, NStr c)
  end.
(** operator=(const JSONObject &), Json.cpp:334-353 *)
Definition copy_assign (h : heap) (a src : addr) : outcome heap :=
  h <- clearData h a ;; ' (h, n) <- copyData h src ;; wr h a (CNode n).
(** operator=(JSONObject &&), Json.cpp:325-332 *)
Definition move_assign (h : heap) (a src : addr) : outcome heap :=
  h <- clearData h a ;; n <- rd_node h src ;; h <- wr h a (CNode n) ;; wr h src (CNode NNull).
(** the last step of append(T), Json.h:316-320: emplace_back of an object with members [n] *)
Definition push (h : heap) (a : addr) (n : node) : outcome heap :=
  n' <- rd_node h a ;;
  match n' with
  | NArr c =>
      l <- rd_arr h c ;;
      if (Z.of_nat (length l) <? int32_max)%Z then
        let '(h, d) := alloc h (CNode n) in wr h c (CArr (l ++ [d]))
      else Fuel
  | _ => UB
  end.
(** append(T) for a scalar argument; Json.h:316-320 *)
Definition append_scal (h : heap) (a : addr) (s : scal) : outcome heap :=
  h <- setType h a KArray ;; let '(h, n) := construct h s in push h a n.
(** append(JSONObject): the parameter is the object at [t]; Json.h:316-320 *)
Definition append_obj (h : heap) (a t : addr) : outcome heap :=
  h <- setType h a KArray ;; ' (h, n) <- copyData h t ;; h <- push h a n ;; destroy h t.
(** a parameter or variable initialised by the copy constructor; Json.cpp:306-323 *)
Definition new_copy (h : heap) (src : addr) : outcome (heap * addr) :=
  ' (h, n) <- copyData h src ;; Ok (alloc h (CNode n)).
(** the move constructor, Json.cpp:252-256 *)
Definition new_move (h : heap) (src : addr) : outcome (heap * addr) :=
  n <- rd_node h src ;; let '(h, a) := alloc h (CNode n) in h <- wr h src (CNode NNull) ;; Ok (h, a).

(** what a const JSONObject contains: the traversal performed by dump, Json.cpp:429-469 *)
Fixpoint view_all (f : addr -> outcome (json F)) (l : list addr) : outcome (list (json F)) :=
  match l with [] => Ok [] | a :: l => v <- f a ;; l <- view_all f l ;; Ok (v :: l) end.
(** dump, Json.cpp:429-469 *)
Fixpoint view (fuel : nat) (h : heap) (a : addr) : outcome (json F) :=
  match fuel with
  | O => Fuel
  | S fuel =>
      n <- rd_node h a ;;
      match n with
      | NNull => Ok JNull
      | NBool b => Ok (JBool b)
      | NInt z => Ok (JInt z)
      | NFlt f => Ok (JFlt f)
      | NStr c => s <- rd_str h c ;; Ok (JStr s)
      | NArr c => l <- rd_arr h c ;; l <- view_all (view fuel h) l ;; Ok (JArr l)
      | NObj c => m <- rd_obj h c ;; l <- view_all (view fuel h) (map snd m) ;; Ok (JObj (combine (map fst m) l))
      end
  end.
(** const member functions; Json.cpp:384-469, Json.h:438 *)
Inductive query := QDump (depth : nat) (tab : bytes) | QType | QSize | QLength | QHasKey (k : bytes)
  | QString | QDouble | QInt | QBool.
(** return values of the member functions of Json.cpp:384-469 *)
Inductive result := RNone | RText (s : bytes) | RType (k : kind) | RInt (z : Z) | RBool (b : bool) | RFlt (f : F).
Context (D : doubles F).
(** dump 429-469; getType, Json.h:438; size 393-397; length 384-386; hasKey 388-391;
    toString 399-401; toDouble 403-405; toInt 411-413; toBool 415-417 (isNull, Json.h:511,
    and the conversion operators 419-427 are instances; toFloat is not modelled) *)
Definition ask (h : heap) (a : addr) (q : query) : outcome result :=
  n <- rd_node h a ;;
  match q with
  | QDump depth tab => v <- view (S (length h)) h a ;; Ok (RText (dump D depth tab v))
  | QType => Ok (RType (kind_of n))
  | QSize =>
      match n with
      | NObj c => m <- rd_obj h c ;; Ok (RInt (wrap32 (Z.of_nat (length m))))
      | NArr c => l <- rd_arr h c ;; Ok (RInt (wrap32 (Z.of_nat (length l))))
      | _ => Ok (RInt (-1))
      end
  | QLength =>
      match n with NArr c => l <- rd_arr h c ;; Ok (RInt (wrap32 (Z.of_nat (length l)))) | _ => Ok (RInt (-1)) end
  | QHasKey k =>
      match n with
      | NObj c => m <- rd_obj h c ;; Ok (RBool (match find_key m k with Some _ => true | None => false end))
      | _ => Ok (RBool false)
      end
  | QString => match n with NStr c => s <- rd_str h c ;; Ok (RText (jsonEscape s)) | _ => Ok (RText []) end
  | QDouble => Ok (RFlt match n with NFlt f => f | _ => fzero end)
  | QInt => Ok (RInt match n with NInt z => z | _ => 0%Z end)
  | QBool => Ok (RBool match n with NBool b => b | _ => false end)
  end.
(** at(key) const, Json.cpp:374-376: operator[] of the std::map behind a const object;
    reading Data.Map of another type is undefined *)
Definition const_key (h : heap) (a : addr) (k : bytes) : outcome (heap * addr) :=
  n <- rd_node h a ;; match n with NObj c => map_at h c k | _ => UB end.
(** at(unsigned) const, Json.cpp:380-382: the argument is converted to unsigned (modulo
    2^32); deque::at throws std::out_of_range *)
Definition const_idx (h : heap) (a : addr) (i : Z) : outcome addr :=
  n <- rd_node h a ;;
  match n with
  | NArr c =>
      l <- rd_arr h c ;;
      let i := (i mod 2 ^ 32)%Z in if (i <? Z.of_nat (length l))%Z then aget l i else Err
  | _ => UB
  end.
(** toString of an object, used for the keys of an initializer list; Json.cpp:249, 399-401 *)
Definition key_text (h : heap) (a : addr) : outcome bytes :=
  n <- rd_node h a ;; match n with NStr c => s <- rd_str h c ;; Ok (jsonEscape s) | _ => Ok [] end.
(** the loop of the initializer-list constructor, Json.cpp:248-249, over the temporaries;
    with an odd number of elements [*std::next(i)] dereferences end() *)
Fixpoint init_loop (h : heap) (z : addr) (ts : list addr) : outcome heap :=
  match ts with
  | [] => Ok h
  | [_] => UB
  | t :: t' :: ts =>
      k <- key_text h t ;;
      ' (h, b) <- index_key h z k ;;
      h <- copy_assign h b t' ;;
      init_loop h z ts
  end.

(** Programs.  C++11 does not fix the order in which the two locations of an assignment
    or of an append are evaluated, and the parameter of append may be initialised
    before or after the other location is evaluated: three orders; for operator= (Json.cpp:325-353) and append (Json.h:316-320) *)
Inductive order := LeftFirst | RightFirst | CopyLate.
(** an element of an initializer list, Json.cpp:246-250 *)
Inductive arg := AScal (s : scal) | ALoc (l : loc).
(** client statements on Json.h *)
Inductive op :=
| OBuild (k : kind)                    (* JSONObject z = JSONObject::Build(k); KNull: JSONObject z; *)
| OCopyNew (l : loc)                   (* JSONObject z(l); *)
| OMoveNew (l : loc)                   (* JSONObject z(std::move(l)); *)
| OInit (l : list arg)                 (* JSONObject z = {l}; *)
| OAssign (l : loc) (s : scal)         (* l = s; *)
| ONullptr (l : loc)                   (* l = nullptr; *)
| OCopy (o : order) (l r : loc)        (* l = r; *)
| OMove (o : order) (l r : loc)        (* l = std::move(r); *)
| OAppendScal (l : loc) (s : scal)     (* l.append(s); *)
| OAppend (o : order) (l r : loc)      (* l.append(r); *)
| OAsk (l : loc) (q : query)           (* l.q() *)
| OConstKey (l : loc) (k : bytes) (q : query)  (* static_cast<const JSONObject &>(l).at(k).q() *)
| OConstIdx (l : loc) (i : Z) (q : query)      (* the same with an index *)
| OEnd.                                (* the variable declared last goes out of scope *)

(** both lvalues of operator= (Json.cpp:325-353) or append (Json.h:316-320) *)
Definition locate2 (left : bool) (h : heap) (vars : list addr) (l r : loc) : outcome (heap * addr * addr) :=
  if left then ' (h, a) <- locate h vars l ;; ' (h, b) <- locate h vars r ;; Ok (h, a, b)
  else ' (h, b) <- locate h vars r ;; ' (h, a) <- locate h vars l ;; Ok (h, a, b).
(** whether the left lvalue is evaluated first (Json.cpp:325-353, Json.h:316-320) *)
Definition is_left (o : order) : bool := match o with LeftFirst => true | _ => false end.
(** the elements of an initializer list are evaluated from left to right; constructor calls of Json.h:127-171 and Json.cpp:306-323 *)
Fixpoint temporaries (h : heap) (vars : list addr) (l : list arg) : outcome (heap * list addr) :=
  match l with
  | [] => Ok (h, [])
  | x :: l =>
      ' (h, a) <- match x with
                  | AScal s => let '(h, n) := construct h s in Ok (alloc h (CNode n))
                  | ALoc r => ' (h, b) <- locate h vars r ;; new_copy h b
                  end ;;
      ' (h, ts) <- temporaries h vars l ;; Ok (h, a :: ts)
  end.
(** memory and the client's JSONObject variables (Json.h:62) *)
Definition state := (heap * list addr)%type.
(** the statements above; Build: Json.h:362-366.  [l = nullptr] selects the template for
    arguments convertible to std::string (Json.h:248-254), and std::string(nullptr) is
    undefined. An empty initializer list selects the default constructor. *)
Definition step (s : state) (o : op) : outcome (state * result) :=
  let '(h, vars) := s in
  match o with
  | OBuild k => let '(h, a) := alloc h (CNode NNull) in h <- setType h a k ;; Ok ((h, vars ++ [a]), RNone)
  | OCopyNew l => ' (h, b) <- locate h vars l ;; ' (h, a) <- new_copy h b ;; Ok ((h, vars ++ [a]), RNone)
  | OMoveNew l => ' (h, b) <- locate h vars l ;; ' (h, a) <- new_move h b ;; Ok ((h, vars ++ [a]), RNone)
  | OInit l =>
      match l with
      | [] => let '(h, a) := alloc h (CNode NNull) in Ok ((h, vars ++ [a]), RNone)
      | _ =>
          ' (h, ts) <- temporaries h vars l ;;
          let '(h, a) := alloc h (CNode NNull) in
          h <- setType h a KObject ;;
          h <- init_loop h a ts ;;
          h <- each destroy h ts ;; Ok ((h, vars ++ [a]), RNone)
      end
  | OAssign l x => ' (h, a) <- locate h vars l ;; h <- assign h a x ;; Ok ((h, vars), RNone)
  | ONullptr l => ' (h, a) <- locate h vars l ;; UB
  | OCopy o l r => ' (h, a, b) <- locate2 (is_left o) h vars l r ;; h <- copy_assign h a b ;; Ok ((h, vars), RNone)
  | OMove o l r => ' (h, a, b) <- locate2 (is_left o) h vars l r ;; h <- move_assign h a b ;; Ok ((h, vars), RNone)
  | OAppendScal l x => ' (h, a) <- locate h vars l ;; h <- append_scal h a x ;; Ok ((h, vars), RNone)
  | OAppend RightFirst l r =>
      ' (h, b) <- locate h vars r ;; ' (h, t) <- new_copy h b ;; ' (h, a) <- locate h vars l ;;
      h <- append_obj h a t ;; Ok ((h, vars), RNone)
  | OAppend o l r =>
      ' (h, a, b) <- locate2 (is_left o) h vars l r ;; ' (h, t) <- new_copy h b ;;
      h <- append_obj h a t ;; Ok ((h, vars), RNone)
  | OAsk l q => ' (h, a) <- locate h vars l ;; x <- ask h a q ;; Ok ((h, vars), x)
  | OConstKey l k q =>
      ' (h, a) <- locate h vars l ;; ' (h, b) <- const_key h a k ;; x <- ask h b q ;; Ok ((h, vars), x)
  | OConstIdx l i q =>
      ' (h, a) <- locate h vars l ;; b <- const_idx h a i ;; x <- ask h b q ;; Ok ((h, vars), x)
  | OEnd =>
      match rev vars with
      | [] => UB
      | a :: vs => h <- destroy h a ;; Ok ((h, rev vs), RNone)
      end
  end.
(** a sequence of client statements on Json.h *)
Fixpoint run (s : state) (os : list op) : outcome (state * list result) :=
  match os with
  | [] => Ok (s, [])
  | o :: os => ' (s, r) <- step s o ;; ' (s, rs) <- run s os ;; Ok (s, r :: rs)
  end.
(** all variables go out of scope, the last one first; destructors, Json.cpp:258 *)
Definition finish (s : state) : outcome heap := each destroy (fst s) (rev (snd s)).
End Heap.
Arguments node : clear implicits. Arguments cell : clear implicits. Arguments heap : clear implicits.
Arguments scal : clear implicits. Arguments arg : clear implicits. Arguments op : clear implicits.
Arguments result : clear implicits. Arguments state : clear implicits.
