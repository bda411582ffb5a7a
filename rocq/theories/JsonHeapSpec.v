(** JSONObject as a value type: programs on trees, without storage. *)
From Verif Require Import Base JsonModel JsonHeapModel.
Local Open Scope nat_scope.

Section Spec.
Context {F : Type}.
Notation json := (json F).

Definition same_key (a b : bytes) : bool := if list_eq_dec Ascii.ascii_dec a b then true else false.
Definition entries (v : json) : list (bytes * json) := match v with JObj m => m | _ => [] end.
Definition items (v : json) : list json := match v with JArr l => l | _ => [] end.
(** value of a key, null if absent; entry replaced or added at its place in key order *)
Definition lookup (m : list (bytes * json)) (k : bytes) : json :=
  match find (fun e => same_key (fst e) k) m with Some e => snd e | None => JNull end.
Definition has (m : list (bytes * json)) (k : bytes) : bool := existsb (fun e => same_key (fst e) k) m.
Definition store (m : list (bytes * json)) (k : bytes) (v : json) : list (bytes * json) :=
  filter (fun e => bless (fst e) k) m ++ (k, v) :: filter (fun e => bless k (fst e)) m.
(** the element selected by one operator[], null if absent *)
Definition get1 (v : json) (s : sel) : json :=
  match s with Key k => lookup (entries v) k | Idx i => nth (Z.to_nat i) (items v) JNull end.
(** [v] with this element replaced; a value of another type becomes an empty container
    first, an array is filled up with null *)
Definition set1 (v : json) (s : sel) (w : json) : json :=
  match s with
  | Key k => JObj (store (entries v) k w)
  | Idx i =>
      let n := Z.to_nat i in
      JArr (firstn n (items v) ++ repeat JNull (n - length (items v)) ++ w :: skipn (S n) (items v))
  end.
(** the same along a path *)
Fixpoint get (v : json) (p : list sel) : json := match p with [] => v | s :: p => get (get1 v s) p end.
Fixpoint put (v : json) (p : list sel) (w : json) : json :=
  match p with [] => w | s :: p => set1 v s (put (get1 v s) p w) end.
(** evaluating a path creates what it mentions *)
Definition touch (v : json) (p : list sel) : json := put v p (get v p).
(** defined indices *)
Definition legal (p : list sel) : bool :=
  forallb (fun s => match s with Key _ => true | Idx i => (0 <=? i)%Z && (i <? int32_max)%Z end) p.

(** environments: the values of the variables *)
Definition env := list json.
Definition eget (r : env) (l : loc) : json := get (nth (fst l) r JNull) (snd l).
Definition eput (r : env) (l : loc) (w : json) : env := upd r (fst l) (put (nth (fst l) r JNull) (snd l) w).
Definition etouch (r : env) (l : loc) : env := eput r l (eget r l).
Definition valid (r : env) (l : loc) : bool := (fst l <? length r) && legal (snd l).

(** how two locations lie to each other *)
Inductive relation := Same | Above | Below | Apart | Clash.
Definition sel_eqb (s t : sel) : bool :=
  match s, t with Key a, Key b => same_key a b | Idx i, Idx j => (i =? j)%Z | _, _ => false end.
Definition same_kind (s t : sel) : bool :=
  match s, t with Key _, Key _ | Idx _, Idx _ => true | _, _ => false end.
Fixpoint relate (p q : list sel) : relation :=
  match p, q with
  | [], [] => Same
  | [], _ => Above
  | _, [] => Below
  | s :: p, t :: q => if sel_eqb s t then relate p q else if same_kind s t then Apart else Clash
  end.
(** [Above]: the second lies inside the first; [Clash]: one needs an object where the
    other needs an array *)
Definition erelate (l r : loc) : relation := if fst l =? fst r then relate (snd l) (snd r) else Apart.

(** types and values that own memory *)
Definition owner (k : kind) : bool := match k with KString | KArray | KObject => true | _ => false end.
Definition owning (v : json) : bool := match v with JStr _ | JArr _ | JObj _ => true | _ => false end.

Definition kind_of_value (v : json) : kind :=
  match v with JNull => KNull | JBool _ => KBool | JInt _ => KInt | JFlt _ => KFloat
             | JStr _ => KString | JArr _ => KArray | JObj _ => KObject end.
Context (fzero : F) (D : doubles F).
Definition initial (k : kind) : json :=
  match k with KNull => JNull | KObject => JObj [] | KArray => JArr [] | KString => JStr []
             | KFloat => JFlt fzero | KInt => JInt 0 | KBool => JBool false end.
Definition scalar (s : scal F) : json :=
  match s with SBool b => JBool b | SInt z => JInt z | SFlt f => JFlt f | SStr s => JStr s end.
(** the result of a const member function *)
Definition answer (v : json) (q : query) : result F :=
  match q with
  | QDump depth tab => RText (dump D depth tab v)
  | QType => RType (kind_of_value v)
  | QSize => RInt match v with JObj m => wrap32 (Z.of_nat (length m)) | JArr l => wrap32 (Z.of_nat (length l)) | _ => (-1)%Z end
  | QLength => RInt match v with JArr l => wrap32 (Z.of_nat (length l)) | _ => (-1)%Z end
  | QHasKey k => RBool (has (entries v) k)
  | QString => RText (toString v)
  | QDouble => RFlt match v with JFlt f => f | _ => fzero end
  | QInt => RInt match v with JInt z => z | _ => 0%Z end
  | QBool => RBool match v with JBool b => b | _ => false end
  end.
(** [Fuel]: more than 2^31 - 1 elements, not modelled *)
Definition appended (v w : json) : outcome json :=
  if (Z.of_nat (length (items v)) <? int32_max)%Z then Ok (JArr (items v ++ [w])) else Fuel.

(** both locations evaluated; UB if evaluating the second destroys the first *)
Definition touch2 (left : bool) (r : env) (l l' : loc) : env :=
  if left then etouch (etouch r l) l' else etouch (etouch r l') l.

(** the values of the elements of an initializer list, and the environment after
    evaluating them *)
Fixpoint arg_values (r : env) (l : list (arg F)) : outcome (env * list json) :=
  match l with
  | [] => Ok (r, [])
  | AScal s :: l => ' (r, vs) <- arg_values r l ;; Ok (r, scalar s :: vs)
  | ALoc x :: l =>
      if valid r x then let r := etouch r x in ' (r', vs) <- arg_values r l ;; Ok (r', eget r x :: vs)
      else UB
  end.
Fixpoint pairs (m : list (bytes * json)) (l : list json) : outcome (list (bytes * json)) :=
  match l with
  | [] => Ok m
  | [_] => UB
  | k :: v :: l => pairs (store m (toString k) v) l
  end.

(** the number of variables after a statement; the locations a statement names *)
Definition counted (n : nat) (o : op F) : nat :=
  match o with OBuild _ | OCopyNew _ | OMoveNew _ | OInit _ => S n | OEnd => pred n | _ => n end.
Definition variables (os : list (op F)) : nat := fold_left counted os 0.
Definition named (o : op F) : list loc :=
  match o with
  | OBuild _ | OEnd => []
  | OCopyNew l | OMoveNew l | OAssign l _ | ONullptr l | OAppendScal l _ | OAsk l _ | OConstKey l _ _ | OConstIdx l _ _ => [l]
  | OCopy _ l r | OMove _ l r | OAppend _ l r => [l; r]
  | OInit l => flat_map (fun x => match x with ALoc r => [r] | AScal _ => [] end) l
  end.
(** variable [i] exists all the time and is not named, starting with [n] variables *)
Fixpoint untouched (i n : nat) (os : list (op F)) : bool :=
  match os with
  | [] => true
  | o :: os => negb (existsb (fun l => fst l =? i) (named o)) && (i <? counted n o) && untouched i (counted n o) os
  end.
(** [l] names a variable of the program [os], with indices that int can count up to *)
Definition defined (os : list (op F)) (l : loc) : bool := (fst l <? variables os) && legal (snd l).
(** the location [p] further inside [l] *)
Definition inside (l : loc) (p : list sel) : loc := (fst l, snd l ++ p).

(** the meaning of a statement: new environment, result, and whether memory is lost *)
Definition meaning (r : env) (o : op F) : outcome (env * result F * bool) :=
  match o with
  | OBuild k => Ok (r ++ [initial k], RNone, false)
  | OCopyNew l => if valid r l then Ok (etouch r l ++ [eget r l], RNone, false) else UB
  | OMoveNew l => if valid r l then Ok (eput r l JNull ++ [eget r l], RNone, false) else UB
  | OInit l =>
      match l with
      | [] => Ok (r ++ [JNull], RNone, false)
      | _ => ' (r, vs) <- arg_values r l ;; m <- pairs [] vs ;; Ok (r ++ [JObj m], RNone, false)
      end
  | OAssign l s => if valid r l then Ok (eput r l (scalar s), RNone, false) else UB
  | ONullptr l => UB
  | OCopy o l l' =>
      if valid r l && valid r l' then
        let r := touch2 (is_left o) r l l' in
        match erelate l l' with
        | Apart => Ok (eput r l (eget r l'), RNone, false)
        | Same | Below => if owning (eget r l) then UB else Ok (eput r l (eget r l'), RNone, false)
        | Above | Clash => UB
        end
      else UB
  | OMove o l l' =>
      if valid r l && valid r l' then
        let r := touch2 (is_left o) r l l' in
        match erelate l l' with
        | Apart => Ok (eput (eput r l' JNull) l (eget r l'), RNone, false)
        | Same => Ok (eput r l JNull, RNone, false)
        | Below => Ok (eput r l' JNull, RNone, true)
        | Above | Clash => UB
        end
      else UB
  | OAppendScal l s => if valid r l then x <- appended (eget r l) (scalar s) ;; Ok (eput r l x, RNone, false) else UB
  | OAppend RightFirst l l' =>
      if valid r l && valid r l' then
        let r := etouch r l' in
        let w := eget r l' in
        let r := etouch r l in
        x <- appended (eget r l) w ;; Ok (eput r l x, RNone, false)
      else UB
  | OAppend o l l' =>
      if valid r l && valid r l' then
        match erelate l l' with
        | Clash => UB
        | _ => let r := touch2 (is_left o) r l l' in 
             x <- appended (eget r l) (eget r l') ;; Ok (eput r l x, RNone, false)
        end
      else UB
  | OAsk l q => if valid r l then Ok (etouch r l, answer (eget r l) q, false) else UB
  | OConstKey l k q =>
      if valid r l then
        match eget r l with
        | JObj m => Ok (eput r l (JObj (store m k (lookup m k))), answer (lookup m k) q, false)
        | _ => UB
        end
      else UB
  | OConstIdx l i q =>
      if valid r l then
        match eget r l with
        | JArr vs =>
            let i := (i mod 2 ^ 32)%Z in
            if (i <? Z.of_nat (length vs))%Z then Ok (etouch r l, answer (nth (Z.to_nat i) vs JNull) q, false)
            else Err
        | _ => UB
        end
      else UB
  | OEnd => match rev r with [] => UB | _ :: r => Ok (rev r, RNone, false) end
  end.
Fixpoint means (r : env) (os : list (op F)) : outcome (env * list (result F) * bool) :=
  match os with
  | [] => Ok (r, [], false)
  | o :: os => ' (r, x, b) <- meaning r o ;; ' (r, xs, b') <- means r os ;; Ok (r, x :: xs, b || b')
  end.
End Spec.
