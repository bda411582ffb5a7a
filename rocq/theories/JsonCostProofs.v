(** Proofs about the stack depth and the copies of loadJSON. *)
From Verif Require Import Base DecModel JsonModel JsonSpec JsonProofs JsonCostModel JsonCostSpec.
Local Open Scope nat_scope.

Lemma copied_nodes {F} : forall v : json F, copied v = nodes v.
Proof.
  fix IH 1. intros [| | | | |l|m]; try reflexivity.
  - cbn [copied nodes]. cbn [Nat.add]. f_equal. induction l as [|v l IL]; [reflexivity|].
    cbn [fold_right]. rewrite IH. f_equal. exact IL.
  - cbn [copied nodes]. cbn [Nat.add]. f_equal. induction m as [|[n v] m IM]; [reflexivity|].
    cbn [fold_right snd]. rewrite IH. f_equal. exact IM.
Qed.

(** ** consumption *)
Lemma at_ok_len s off c : at_ s off = Ok c -> off <= length s.
Proof. intros H. destruct (le_lt_dec off (length s)) as [L|L]; [assumption|]. rewrite at_oob in H by assumption. discriminate. Qed.
Lemma skip_ws_adv f : forall s off e, skip_ws f s off = Ok e -> off <= e <= length s.
Proof.
  induction f as [|f IH]; intros s off e H; [discriminate|]. cbn [skip_ws] in H.
  destruct (at_ s off) as [c| | |] eqn:A; cbn [bind] in H; try discriminate. destruct (isspace c).
  - apply IH in H. lia.
  - injection H as <-. apply at_ok_len in A. lia.
Qed.
Lemma skip_adv s off e : skip_whitespaces s off = Ok e -> off <= e <= length s.
Proof. apply skip_ws_adv. Qed.
Lemma str_adv f : forall s off val r e, str_loop f s off val = Ok (r, e) -> off < e <= S (length s).
Proof.
  induction f as [|f IH]; intros s off val r e H; [discriminate|]. cbn [str_loop] in H.
  destruct (at_ s off) as [c| | |] eqn:A; cbn [bind] in H; try discriminate.
  destruct (Ascii.eqb c DQ). { injection H as _ <-. apply at_ok_len in A. lia. }
  destruct (Ascii.eqb c BSL).
  - destruct (at_ s (S off)) as [c2| | |]; cbn [bind] in H; try discriminate. destruct (Ascii.eqb c2 "u").
    + destruct (hex_loop _ _ _ _) as [x| | |]; cbn [bind] in H; try discriminate. apply IH in H. lia.
    + apply IH in H. lia.
  - apply IH in H. lia.
Qed.
Lemma num_adv f : forall s off val d r d' c e, num_loop f s off val d = Ok (r, d', c, e) ->
  off < e /\ at_ s (e - 1) = Ok c /\ (forall c0, at_ s off = Ok c0 -> is_digit c0 || Ascii.eqb c0 "-" = true -> S off < e).
Proof.
  induction f as [|f IH]; intros s off val d r d' c e H; [discriminate|]. cbn [num_loop] in H.
  destruct (at_ s off) as [c1| | |] eqn:A; cbn [bind] in H; try discriminate.
  destruct (Ascii.eqb c1 "-" || is_digit c1) eqn:C.
  { apply IH in H. destruct H as (H & H2 & _). split; [lia|]. split; [assumption|]. intros; lia. }
  destruct (Ascii.eqb c1 ".").
  { apply IH in H. destruct H as (H & H2 & _). split; [lia|]. split; [assumption|]. intros; lia. }
  injection H as <- <- <- <-. split; [lia|]. split; [now replace (S off - 1) with off by lia|].
  intros c0 [= <-] C0. rewrite orb_comm in C0. congruence.
Qed.
Lemma exp_adv f : forall s off es r c e, exp_loop f s off es = Ok (r, c, e) -> off <= e /\ at_ s e = Ok c.
Proof.
  induction f as [|f IH]; intros s off es r c e H; [discriminate|]. cbn [exp_loop] in H.
  destruct (at_ s off) as [c1| | |] eqn:A; cbn [bind] in H; try discriminate.
  destruct (is_digit c1). { apply IH in H. destruct H. split; [lia|assumption]. }
  destruct (delimiter c1); [|discriminate]. injection H as <- <- <-. split; [lia|assumption].
Qed.
Lemma number_adv {F} (D : doubles F) s off c v e : at_ s off = Ok c -> is_digit c || Ascii.eqb c "-" = true ->
  parse_number D s off = Ok (v, e) -> off < e <= S (length s) /\ nodes v = 1 /\ height v = 1 /\ member_work v = 0.
Proof.
  intros A C. unfold parse_number. destruct (num_loop _ _ _ _ _) as [[[[val d] c1] e1]| | |] eqn:N; cbn [bind]; try discriminate.
  apply num_adv in N. destruct N as (L1 & A1 & L2). specialize (L2 c A C).
  assert (B1 : e1 <= S (length s)) by (apply at_ok_len in A1; lia).
  destruct (Ascii.eqb c1 "E" || Ascii.eqb c1 "e").
  - destruct (e1 =? length s); [discriminate|].
    destruct (at_ s e1) as [c2| | |] eqn:A2; cbn [bind]; try discriminate.
    destruct (exp_loop _ _ _ _) as [[[es c3] e3]| | |] eqn:X; cbn [bind]; try discriminate.
    apply exp_adv in X. destruct X as [L3 A3]. apply at_ok_len in A3.
    destruct (exp_value es) as [x| | |]; cbn [bind]; try discriminate. intros [= <- <-].
    split; [destruct (Ascii.eqb c3 NUL); lia|]. destruct d, es; auto.
  - destruct (delimiter c1); cbn [bind]; [|discriminate]. intros [= <- <-].
    split; [destruct (Ascii.eqb c1 NUL); lia|]. destruct d; auto.
Qed.
(** counts from an offset on *)
Definition ops (s : bytes) (off : nat) := openings (skipn off s).
Definition brs (s : bytes) (off : nat) := braces (skipn off s).
Lemma skipn_S (s : bytes) off : skipn (S off) s = skipn 1 (skipn off s).
Proof. revert s. induction off as [|n IH]; intros [|a s]; try reflexivity. exact (IH s). Qed.
Lemma ops_mono s off e : off <= e -> ops s e <= ops s off.
Proof.
  induction 1 as [|e L IH]; [lia|]. etransitivity; [|exact IH]. unfold ops. rewrite skipn_S.
  destruct (skipn e s) as [|a t]; cbn [skipn]; [lia|]. unfold openings. cbn [filter]. destruct (_ || _); cbn [length]; lia.
Qed.
Lemma brs_mono s off e : off <= e -> brs s e <= brs s off.
Proof.
  induction 1 as [|e L IH]; [lia|]. etransitivity; [|exact IH]. unfold brs. rewrite skipn_S.
  destruct (skipn e s) as [|a t]; cbn [skipn]; [lia|]. unfold braces. cbn [filter]. destruct (Ascii.eqb _ _); cbn [length]; lia.
Qed.
Lemma at_skipn s off c : at_ s off = Ok c -> c <> NUL -> skipn off s = c :: skipn (S off) s.
Proof.
  unfold at_. intros H N. destruct (nth_error s off) as [x|] eqn:E.
  - injection H as ->. clear N. revert s E. induction off as [|n IH]; intros [|a s] E; try discriminate.
    + injection E as ->. reflexivity.
    + exact (IH s E).
  - destruct (_ =? _); [|discriminate]. congruence.
Qed.
Lemma ops_at s off c : at_ s off = Ok c -> Ascii.eqb c "[" || Ascii.eqb c "{" = true -> ops s off = S (ops s (S off)).
Proof.
  intros A C. unfold ops. rewrite (at_skipn s off c A).
  - unfold openings. cbn [filter]. rewrite C. reflexivity.
  - intros ->. discriminate.
Qed.
Lemma brs_at s off c : at_ s off = Ok c -> Ascii.eqb c "{" = true -> brs s off = S (brs s (S off)).
Proof.
  intros A C. unfold brs. rewrite (at_skipn s off c A).
  - unfold braces. cbn [filter]. rewrite C. reflexivity.
  - intros ->. discriminate.
Qed.

(** ** sums over members *)
Definition sum {A} (g : A -> nat) (l : list A) := fold_right (fun a n => g a + n) 0 l.
Lemma sum_app {A} (g : A -> nat) l r : sum g (l ++ r) = sum g l + sum g r.
Proof. unfold sum. induction l as [|a l IH]; [reflexivity|]. cbn [app fold_right]. rewrite IH. lia. Qed.
Lemma sum_set {V} (g : V -> nat) m (k : bytes) v :
  sum (fun p => g (snd p)) (map_set m k v) <= sum (fun p => g (snd p)) m + g v.
Proof.
  unfold sum. induction m as [|[k' v'] m IH]; cbn [map_set fold_right snd]; [lia|].
  destruct (bless k k'); [cbn [fold_right snd]; lia|]. destruct (bless k' k); cbn [fold_right snd]; lia.
Qed.
Definition mx {A} (g : A -> nat) (l : list A) := fold_right (fun a n => Nat.max (g a) n) 0 l.
Lemma mx_app {A} (g : A -> nat) l r : mx g (l ++ r) = Nat.max (mx g l) (mx g r).
Proof. unfold mx. induction l as [|a l IH]; [reflexivity|]. cbn [app fold_right]. rewrite IH. lia. Qed.
Lemma mx_set {V} (g : V -> nat) m (k : bytes) v :
  mx (fun p => g (snd p)) (map_set m k v) <= Nat.max (mx (fun p => g (snd p)) m) (g v).
Proof.
  unfold mx. induction m as [|[k' v'] m IH]; cbn [map_set fold_right snd]; [lia|].
  destruct (bless k k'); [cbn [fold_right snd]; lia|]. destruct (bless k' k); cbn [fold_right snd]; lia.
Qed.
Definition arr_nodes {F} (l : list (json F)) := sum nodes l.
Definition obj_nodes {F} (m : list (bytes * json F)) := sum (fun p => nodes (snd p)) m.
Definition arr_work {F} (l : list (json F)) := sum member_work l.
Definition obj_work {F} (m : list (bytes * json F)) := sum (fun p => nodes (snd p) + member_work (snd p)) m.
Definition arr_h {F} (l : list (json F)) := mx height l.
Definition obj_h {F} (m : list (bytes * json F)) := mx (fun p => height (snd p)) m.

Section Main.
Context {F : Type} (D : doubles F).
Lemma obj_unfold f s off acc : obj_loop D (S f) s off acc =
  (' (key, off) <- parse_next D f s off ;;
   off <- skip_whitespaces s off ;;
   c <- at_ s off ;;
   if Ascii.eqb c ":" then
     off <- skip_whitespaces s (S off) ;;
     ' (v, off) <- parse_next D f s off ;;
     off <- skip_whitespaces s off ;;
     c <- at_ s off ;;
     if Ascii.eqb c "," then obj_loop D f s (S off) (map_set acc (toString key) v)
     else if Ascii.eqb c "}" then Ok (JObj (map_set acc (toString key) v), S off)
     else Err
   else Err).
Proof. reflexivity. Qed.
Lemma arr_unfold f s off acc : arr_loop D (S f) s off acc =
  (' (v, off) <- parse_next D f s off ;;
   off <- skip_whitespaces s off ;;
   c <- at_ s off ;;
   if Ascii.eqb c "," then arr_loop D f s (S off) (acc ++ [v])
   else if Ascii.eqb c "]" then Ok (JArr (acc ++ [v]), S off)
   else Err).
Proof. reflexivity. Qed.
Lemma obj_c_unfold f stk s off acc k : obj_c D (S f) stk s off acc k =
  (' (key, off, k1) <- next_c D f stk s off ;;
   off <- skip_whitespaces s off ;;
   c <- at_ s off ;;
   if Ascii.eqb c ":" then
     off <- skip_whitespaces s (S off) ;;
     ' (v, off, k2) <- next_c D f stk s off ;;
     off <- skip_whitespaces s off ;;
     c <- at_ s off ;;
     if Ascii.eqb c "," then obj_c D f stk s (S off) (map_set acc (toString key) v) (k + k1 + k2 + copied v)
     else if Ascii.eqb c "}" then Ok (JObj (map_set acc (toString key) v), S off, k + k1 + k2 + copied v)
     else Err
   else Err).
Proof. reflexivity. Qed.
Lemma arr_c_unfold f stk s off acc k : arr_c D (S f) stk s off acc k =
  (' (v, off, k1) <- next_c D f stk s off ;;
   off <- skip_whitespaces s off ;;
   c <- at_ s off ;;
   if Ascii.eqb c "," then arr_c D f stk s (S off) (acc ++ [v]) (k + k1)
   else if Ascii.eqb c "]" then Ok (JArr (acc ++ [v]), S off, k + k1)
   else Err).
Proof. reflexivity. Qed.
(** what a successful run says about its result *)
Definition good (s : bytes) (off e : nat) (d : nat) (v : json F) (k : nat) : Prop :=
  off < e <= S (length s) /\ nodes v <= e - off /\ height v <= d /\ member_work v <= k /\
  k <= (brs s off - brs s e) * (e - off).
Lemma good_leaf s off e d v : off < e <= S (length s) -> nodes v = 1 -> height v = 1 -> member_work v = 0 ->
  good s off e (S d) v 0.
Proof. intros L N H W. unfold good. rewrite N, H, W. repeat split; try apply Nat.le_0_l; lia. Qed.
Lemma good_weaken s off off' e d v k : off' <= off -> good s off e d v k -> good s off' e d v k.
Proof.
  intros L (A & B & C & W & K). repeat split; try lia. etransitivity; [exact K|].
  pose proof (brs_mono s off' off L). apply Nat.mul_le_mono; lia.
Qed.
Lemma no_copy_ok (m : outcome (json F * nat)) v e k : no_copy m = Ok (v, e, k) -> m = Ok (v, e) /\ k = 0.
Proof. unfold no_copy. destruct m as [[v' e']| | |]; cbn [bind]; try discriminate. intros [= -> -> ->]. auto. Qed.
Lemma string_leaf s off v e : @parse_string F s off = Ok (v, e) ->
  off < e <= S (length s) /\ nodes v = 1 /\ height v = 1 /\ member_work v = 0.
Proof.
  unfold parse_string. destruct (str_loop _ _ _ _) as [[t e']| | |] eqn:S; cbn [bind]; try discriminate.
  intros [= <- <-]. apply str_adv in S. repeat split; lia.
Qed.
Lemma bool_leaf s off v e : @parse_bool F s off = Ok (v, e) ->
  off < e <= S (length s) /\ nodes v = 1 /\ height v = 1 /\ member_work v = 0.
Proof.
  unfold parse_bool. destruct (beq (substr s off 4) _) eqn:B1.
  - apply substr_len in B1; [|simpl; lia|reflexivity]. intros [= <- <-]. repeat split; lia.
  - destruct (beq (substr s off 5) _) eqn:B2; [|discriminate].
    apply substr_len in B2; [|simpl; lia|reflexivity]. intros [= <- <-]. repeat split; lia.
Qed.
Lemma null_leaf s off v e : @parse_null F s off = Ok (v, e) ->
  off < e <= S (length s) /\ nodes v = 1 /\ height v = 1 /\ member_work v = 0.
Proof.
  unfold parse_null. destruct (beq (substr s off 4) _) eqn:B1; [|discriminate].
  apply substr_len in B1; [|simpl; lia|reflexivity]. intros [= <- <-]. repeat split; lia.
Qed.
Ltac okstep H :=
  match type of H with
  | bind ?m _ = Ok _ => destruct m eqn:?; cbn [bind] in H; try discriminate
  end.
(** every successful run of the instrumented parser is one of the parser *)
Lemma all_good f : forall s,
  (forall stk off v e k, next_c D f stk s off = Ok (v, e, k) ->
     parse_next D f s off = Ok (v, e) /\ good s off e stk v k) /\
  (forall stk off acc k0 v e k, obj_c D f stk s off acc k0 = Ok (v, e, k) ->
     obj_loop D f s off acc = Ok (v, e) /\ off < e <= S (length s) /\ brs s e <= brs s off /\
     exists m, v = JObj m /\ obj_nodes m <= obj_nodes acc + (e - off) /\ obj_h m <= Nat.max (obj_h acc) stk /\
       obj_work m + k0 <= obj_work acc + k /\ k <= k0 + S (brs s off - brs s e) * (e - off)) /\
  (forall stk off acc k0 v e k, arr_c D f stk s off acc k0 = Ok (v, e, k) ->
     arr_loop D f s off acc = Ok (v, e) /\ off < e <= S (length s) /\ brs s e <= brs s off /\
     exists l, v = JArr l /\ arr_nodes l <= arr_nodes acc + (e - off) /\ arr_h l <= Nat.max (arr_h acc) stk /\
       arr_work l + k0 <= arr_work acc + k /\ k <= k0 + (brs s off - brs s e) * (e - off)).
Proof.
  induction f as [|f IH]; intros s; [split; [|split]; intros; discriminate|].
  destruct (IH s) as (IN & IO & IA). split; [|split].
  - intros [|stk] off v e k H; [discriminate|]. cbn [next_c] in H. cbn [parse_next].
    destruct (skip_whitespaces s off) as [o1| | |] eqn:S1; cbn [bind] in H |- *; try discriminate.
    apply skip_adv in S1. destruct (at_ s o1) as [c| | |] eqn:A1; cbn [bind] in H |- *; try discriminate.
    assert (W : forall P : Prop, P /\ good s o1 e (S stk) v k -> P /\ good s off e (S stk) v k).
    { intros P [p G]. split; [exact p|]. apply good_weaken with (off := o1); [lia|exact G]. }
    apply W. clear W.
    destruct (Ascii.eqb c "[") eqn:C1.
    { destruct (skip_whitespaces s (S o1)) as [o2| | |] eqn:S2; cbn [bind] in H |- *; try discriminate.
      apply skip_adv in S2. destruct (at_ s o2) as [c2| | |] eqn:A2; cbn [bind] in H |- *; try discriminate.
      destruct (Ascii.eqb c2 "]").
      - injection H as <- <- <-. split; [reflexivity|]. unfold good; cbn [nodes height member_work fold_right]; repeat split; try apply Nat.le_0_l; lia.
      - apply IA in H. destruct H as (E & L & B & l & -> & N & Hh & Wk & K). split; [exact E|].
        pose proof (brs_mono s o1 o2 ltac:(lia)).
        unfold good. unfold arr_nodes, arr_h, arr_work, sum, mx in N, Hh, Wk. cbn in N, Hh, Wk.
        cbn [nodes height member_work]. repeat split; try lia.
        etransitivity; [exact K|]. cbn [Nat.add]. apply Nat.mul_le_mono; lia. }
    destruct (Ascii.eqb c "{") eqn:C2.
    { destruct (skip_whitespaces s (S o1)) as [o2| | |] eqn:S2; cbn [bind] in H |- *; try discriminate.
      apply skip_adv in S2. destruct (at_ s o2) as [c2| | |] eqn:A2; cbn [bind] in H |- *; try discriminate.
      destruct (Ascii.eqb c2 "}").
      - injection H as <- <- <-. split; [reflexivity|]. unfold good; cbn [nodes height member_work fold_right]; repeat split; try apply Nat.le_0_l; lia.
      - apply IO in H. destruct H as (E & L & B & l & -> & N & Hh & Wk & K). split; [exact E|].
        pose proof (brs_mono s (S o1) o2 ltac:(lia)). pose proof (brs_at s o1 c A1 C2).
        unfold good. unfold obj_nodes, obj_h, obj_work, sum, mx in N, Hh, Wk. cbn in N, Hh, Wk.
        cbn [nodes height member_work]. repeat split; try lia.
        etransitivity; [exact K|]. cbn [Nat.add]. apply Nat.mul_le_mono; lia. }
    destruct (Ascii.eqb c DQ).
    { apply no_copy_ok in H. destruct H as [H ->]. split; [exact H|]. apply string_leaf in H.
      destruct H as (? & ? & ? & ?). now apply good_leaf. }
    destruct (Ascii.eqb c "t" || Ascii.eqb c "f").
    { apply no_copy_ok in H. destruct H as [H ->]. split; [exact H|]. apply bool_leaf in H.
      destruct H as (? & ? & ? & ?). now apply good_leaf. }
    destruct (Ascii.eqb c "n").
    { apply no_copy_ok in H. destruct H as [H ->]. split; [exact H|]. apply null_leaf in H.
      destruct H as (? & ? & ? & ?). now apply good_leaf. }
    destruct (is_digit c || Ascii.eqb c "-") eqn:C6; [|discriminate].
    { apply no_copy_ok in H. destruct H as [H ->]. split; [exact H|]. apply (number_adv D s o1 c v e A1 C6) in H.
      destruct H as (? & ? & ? & ?). now apply good_leaf. }
  - intros stk off acc k0 v e k H. rewrite obj_c_unfold in H. rewrite obj_unfold.
    destruct (next_c D f stk s off) as [[[key o1] k1]| | |] eqn:N1; cbn [bind] in H; try discriminate.
    apply IN in N1. destruct N1 as [-> (L1 & NN1 & H1 & W1 & K1)]. cbn [bind].
    destruct (skip_whitespaces s o1) as [o2| | |] eqn:S2; cbn [bind] in H |- *; try discriminate. apply skip_adv in S2.
    destruct (at_ s o2) as [c| | |] eqn:A2; cbn [bind] in H |- *; try discriminate.
    destruct (Ascii.eqb c ":"); [|discriminate].
    destruct (skip_whitespaces s (S o2)) as [o3| | |] eqn:S3; cbn [bind] in H |- *; try discriminate. apply skip_adv in S3.
    destruct (next_c D f stk s o3) as [[[v2 o4] k2]| | |] eqn:N2; cbn [bind] in H; try discriminate.
    apply IN in N2. destruct N2 as [-> (L2 & NN2 & H2 & W2 & K2)]. cbn [bind].
    destruct (skip_whitespaces s o4) as [o5| | |] eqn:S5; cbn [bind] in H |- *; try discriminate. apply skip_adv in S5.
    destruct (at_ s o5) as [c5| | |] eqn:A5; cbn [bind] in H |- *; try discriminate.
    rewrite copied_nodes in H.
    pose proof (brs_mono s off o1 ltac:(lia)) as M1. pose proof (brs_mono s o1 o3 ltac:(lia)) as M2.
    pose proof (brs_mono s o3 o4 ltac:(lia)) as M3. pose proof (brs_mono s o4 (S o5) ltac:(lia)) as M4.
    pose proof (sum_set nodes acc (toString key) v2) as SN.
    pose proof (sum_set (fun v => nodes v + member_work v) acc (toString key) v2) as SW.
    pose proof (mx_set height acc (toString key) v2) as SH.
    unfold obj_nodes, obj_h, obj_work in *.
    assert (KK : forall t, brs s t <= brs s o4 -> k1 + k2 + nodes v2 <= S (brs s off - brs s t) * (o4 - off)).
    { intros t T.
      assert (k1 <= (brs s off - brs s t) * (o1 - off)) by (etransitivity; [exact K1|]; apply Nat.mul_le_mono; lia).
      assert (k2 <= (brs s off - brs s t) * (o4 - o3)) by (etransitivity; [exact K2|]; apply Nat.mul_le_mono; lia).
      assert ((brs s off - brs s t) * (o1 - off) + (brs s off - brs s t) * (o4 - o3) <= (brs s off - brs s t) * (o4 - off)).
      { rewrite <- Nat.mul_add_distr_l. apply Nat.mul_le_mono; lia. }
      cbn [Nat.mul]. lia. }
    destruct (Ascii.eqb c5 ",").
    + apply IO in H. destruct H as (E & L & B & m & -> & N & Hh & Wk & K). split; [exact E|]. split; [lia|]. split; [lia|].
      exists m. split; [reflexivity|]. split; [lia|]. split; [lia|]. split; [lia|].
      specialize (KK e ltac:(lia)).
      assert (S (brs s (S o5) - brs s e) * (e - S o5) <= S (brs s off - brs s e) * (e - S o5)) by (apply Nat.mul_le_mono; lia).
      assert (S (brs s off - brs s e) * (o4 - off) + S (brs s off - brs s e) * (e - S o5) <= S (brs s off - brs s e) * (e - off)).
      { rewrite <- Nat.mul_add_distr_l. apply Nat.mul_le_mono; lia. }
      lia.
    + destruct (Ascii.eqb c5 "}"); [|discriminate]. injection H as <- <- <-. split; [reflexivity|]. split; [lia|]. split; [lia|].
      eexists. split; [reflexivity|]. split; [lia|]. split; [lia|]. split; [lia|].
      specialize (KK (S o5) ltac:(lia)).
      assert (S (brs s off - brs s (S o5)) * (o4 - off) <= S (brs s off - brs s (S o5)) * (S o5 - off)) by (apply Nat.mul_le_mono; lia).
      lia.
  - intros stk off acc k0 v e k H. rewrite arr_c_unfold in H. rewrite arr_unfold.
    destruct (next_c D f stk s off) as [[[v2 o4] k2]| | |] eqn:N2; cbn [bind] in H; try discriminate.
    apply IN in N2. destruct N2 as [-> (L2 & NN2 & H2 & W2 & K2)]. cbn [bind].
    destruct (skip_whitespaces s o4) as [o5| | |] eqn:S5; cbn [bind] in H |- *; try discriminate. apply skip_adv in S5.
    destruct (at_ s o5) as [c5| | |] eqn:A5; cbn [bind] in H |- *; try discriminate.
    pose proof (brs_mono s off o4 ltac:(lia)) as M3. pose proof (brs_mono s o4 (S o5) ltac:(lia)) as M4.
    assert (SN : arr_nodes (acc ++ [v2]) = arr_nodes acc + nodes v2) by (unfold arr_nodes; rewrite sum_app; cbn; lia).
    assert (SW : arr_work (acc ++ [v2]) = arr_work acc + member_work v2) by (unfold arr_work; rewrite sum_app; cbn; lia).
    assert (SH : arr_h (acc ++ [v2]) = Nat.max (arr_h acc) (height v2)) by (unfold arr_h; rewrite mx_app; cbn; lia).
    assert (KK : forall t, brs s t <= brs s o4 -> k2 <= (brs s off - brs s t) * (o4 - off)).
    { intros t T. etransitivity; [exact K2|]; apply Nat.mul_le_mono; lia. }
    destruct (Ascii.eqb c5 ",").
    + apply IA in H. destruct H as (E & L & B & m & -> & N & Hh & Wk & K). split; [exact E|]. split; [lia|]. split; [lia|].
      exists m. split; [reflexivity|]. split; [lia|]. split; [lia|]. split; [lia|].
      specialize (KK e ltac:(lia)).
      assert ((brs s (S o5) - brs s e) * (e - S o5) <= (brs s off - brs s e) * (e - S o5)) by (apply Nat.mul_le_mono; lia).
      assert ((brs s off - brs s e) * (o4 - off) + (brs s off - brs s e) * (e - S o5) <= (brs s off - brs s e) * (e - off)).
      { rewrite <- Nat.mul_add_distr_l. apply Nat.mul_le_mono; lia. }
      lia.
    + destruct (Ascii.eqb c5 "]"); [|discriminate]. injection H as <- <- <-. split; [reflexivity|]. split; [lia|]. split; [lia|].
      eexists. split; [reflexivity|]. split; [lia|]. split; [lia|]. split; [lia|].
      specialize (KK (S o5) ltac:(lia)).
      assert ((brs s off - brs s (S o5)) * (o4 - off) <= (brs s off - brs s (S o5)) * (S o5 - off)) by (apply Nat.mul_le_mono; lia).
      lia.
Qed.

(** ** with enough stack the parser is the one without limit *)
Lemma omap_no_copy (m : outcome (json F * nat)) : omap fst (no_copy m) = m.
Proof. destruct m as [[v e]| | |]; reflexivity. Qed.
Lemma all_same f : forall s,
  (forall stk off, ops s off < stk -> omap fst (next_c D f stk s off) = parse_next D f s off) /\
  (forall stk off acc k, ops s off < stk -> omap fst (obj_c D f stk s off acc k) = obj_loop D f s off acc) /\
  (forall stk off acc k, ops s off < stk -> omap fst (arr_c D f stk s off acc k) = arr_loop D f s off acc).
Proof.
  induction f as [|f IH]; intros s; [split; [|split]; reflexivity|].
  destruct (IH s) as (IN & IO & IA). destruct (all_good f s) as (GN & _ & _). split; [|split].
  - intros [|stk] off L; [lia|]. cbn [next_c parse_next].
    destruct (skip_whitespaces s off) as [o1| | |] eqn:S1; cbn [bind]; try reflexivity.
    apply skip_adv in S1. destruct (at_ s o1) as [c| | |] eqn:A1; cbn [bind]; try reflexivity.
    pose proof (ops_mono s off o1 ltac:(lia)) as M1.
    destruct (Ascii.eqb c "[") eqn:C1.
    { destruct (skip_whitespaces s (S o1)) as [o2| | |] eqn:S2; cbn [bind]; try reflexivity.
      apply skip_adv in S2. destruct (at_ s o2) as [c2| | |] eqn:A2; cbn [bind]; try reflexivity.
      destruct (Ascii.eqb c2 "]"); [reflexivity|]. apply IA.
      pose proof (ops_at s o1 c A1 ltac:(now rewrite C1)). pose proof (ops_mono s (S o1) o2 ltac:(lia)). lia. }
    destruct (Ascii.eqb c "{") eqn:C2.
    { destruct (skip_whitespaces s (S o1)) as [o2| | |] eqn:S2; cbn [bind]; try reflexivity.
      apply skip_adv in S2. destruct (at_ s o2) as [c2| | |] eqn:A2; cbn [bind]; try reflexivity.
      destruct (Ascii.eqb c2 "}"); [reflexivity|]. apply IO.
      pose proof (ops_at s o1 c A1 ltac:(rewrite C2; apply orb_true_r)). pose proof (ops_mono s (S o1) o2 ltac:(lia)). lia. }
    destruct (Ascii.eqb c DQ); [apply omap_no_copy|].
    destruct (Ascii.eqb c "t" || Ascii.eqb c "f"); [apply omap_no_copy|].
    destruct (Ascii.eqb c "n"); [apply omap_no_copy|].
    destruct (is_digit c || Ascii.eqb c "-"); [apply omap_no_copy|reflexivity].
  - intros stk off acc k L. rewrite obj_c_unfold, obj_unfold. rewrite <- (IN stk off L).
    destruct (next_c D f stk s off) as [[[key o1] k1]| | |] eqn:N1; cbn [bind omap fst]; try reflexivity.
    apply GN in N1. destruct N1 as [_ (L1 & _)].
    destruct (skip_whitespaces s o1) as [o2| | |] eqn:S2; cbn [bind]; try reflexivity. apply skip_adv in S2.
    destruct (at_ s o2) as [c| | |] eqn:A2; cbn [bind]; try reflexivity.
    destruct (Ascii.eqb c ":"); [|reflexivity].
    destruct (skip_whitespaces s (S o2)) as [o3| | |] eqn:S3; cbn [bind]; try reflexivity. apply skip_adv in S3.
    pose proof (ops_mono s off o3 ltac:(lia)) as M. rewrite <- (IN stk o3 ltac:(lia)).
    destruct (next_c D f stk s o3) as [[[v2 o4] k2]| | |] eqn:N2; cbn [bind omap fst]; try reflexivity.
    apply GN in N2. destruct N2 as [_ (L2 & _)].
    destruct (skip_whitespaces s o4) as [o5| | |] eqn:S5; cbn [bind]; try reflexivity. apply skip_adv in S5.
    destruct (at_ s o5) as [c5| | |] eqn:A5; cbn [bind]; try reflexivity.
    destruct (Ascii.eqb c5 ","); [|destruct (Ascii.eqb c5 "}"); reflexivity].
    apply IO. pose proof (ops_mono s off (S o5) ltac:(lia)). lia.
  - intros stk off acc k L. rewrite arr_c_unfold, arr_unfold. rewrite <- (IN stk off L).
    destruct (next_c D f stk s off) as [[[v2 o4] k2]| | |] eqn:N2; cbn [bind omap fst]; try reflexivity.
    apply GN in N2. destruct N2 as [_ (L2 & _)].
    destruct (skip_whitespaces s o4) as [o5| | |] eqn:S5; cbn [bind]; try reflexivity. apply skip_adv in S5.
    destruct (at_ s o5) as [c5| | |] eqn:A5; cbn [bind]; try reflexivity.
    destruct (Ascii.eqb c5 ","); [|destruct (Ascii.eqb c5 "]"); reflexivity].
    apply IA. pose proof (ops_mono s off (S o5) ltac:(lia)). lia.
Qed.
(** ** nested arrays and objects *)
Lemma next_c_unfold f stk s off : next_c D (S f) (S stk) s off =
  (off <- skip_whitespaces s off ;;
   c <- at_ s off ;;
   if Ascii.eqb c "[" then
     off <- skip_whitespaces s (S off) ;;
     c <- at_ s off ;;
     if Ascii.eqb c "]" then Ok (JArr [], S off, 0) else arr_c D f stk s off [] 0
   else if Ascii.eqb c "{" then
     off <- skip_whitespaces s (S off) ;;
     c <- at_ s off ;;
     if Ascii.eqb c "}" then Ok (JObj [], S off, 0) else obj_c D f stk s off [] 0
   else if Ascii.eqb c DQ then no_copy (parse_string s off)
   else if Ascii.eqb c "t" || Ascii.eqb c "f" then no_copy (parse_bool s off)
   else if Ascii.eqb c "n" then no_copy (parse_null s off)
   else if is_digit c || Ascii.eqb c "-" then no_copy (parse_number D s off)
   else Err).
Proof. reflexivity. Qed.
Lemma skip_at s off c r : pos s off (c :: r) -> isspace c = false -> skip_whitespaces s off = Ok off.
Proof. intros P N. apply (skip_none s off (c :: r) P). exact N. Qed.
Lemma arrays_over stk : forall f s off r, pos s off (repeat "["%char (S stk) ++ r) -> 2 * stk + 1 <= f ->
  next_c D f stk s off = UB.
Proof.
  induction stk as [|stk IH]; intros f s off r P L; (destruct f as [|f]; [lia|]); [reflexivity|].
  rewrite next_c_unfold. cbn [repeat app] in P.
  rewrite (skip_at _ _ _ _ P eq_refl). cbn [bind]. rewrite (pos_at _ _ _ _ P). cbn [bind].
  change (Ascii.eqb "[" "[") with true. cbv iota. apply pos_S in P.
  rewrite (skip_at _ _ _ _ P eq_refl). cbn [bind]. rewrite (pos_at _ _ _ _ P). cbn [bind].
  change (Ascii.eqb "[" "]") with false. cbv iota. destruct f as [|f]; [lia|]. rewrite arr_c_unfold.
  rewrite (IH f s (S off) r P) by lia. reflexivity.
Qed.
Lemma repeat_snoc {A} (a : A) n r : repeat a n ++ a :: r = repeat a (S n) ++ r.
Proof. induction n as [|n IH]; [reflexivity|]. cbn [repeat app]. f_equal. exact IH. Qed.
Lemma arrays_fit n : forall f stk s off r, pos s off (repeat "["%char (S n) ++ repeat "]"%char (S n) ++ r) ->
  2 * n + 1 <= f -> S n <= stk -> next_c D f stk s off = Ok (deep_array n, off + 2 * S n, 0).
Proof.
  induction n as [|n IH]; intros f stk s off r P L LS; (destruct f as [|f]; [lia|]); (destruct stk as [|stk]; [lia|]);
    rewrite next_c_unfold; cbn [repeat app] in P;
    rewrite (skip_at _ _ _ _ P eq_refl); cbn [bind]; rewrite (pos_at _ _ _ _ P); cbn [bind];
    change (Ascii.eqb "[" "[") with true; cbv iota; apply pos_S in P;
    rewrite (skip_at _ _ _ _ P eq_refl); cbn [bind]; rewrite (pos_at _ _ _ _ P); cbn [bind].
  - change (Ascii.eqb "]" "]") with true. cbv iota. cbn [deep_array]. repeat f_equal. lia.
  - change (Ascii.eqb "[" "]") with false. cbv iota. destruct f as [|f]; [lia|]. rewrite arr_c_unfold.
    assert (P1 : pos s (S off) (repeat "["%char (S n) ++ repeat "]"%char (S n) ++ "]"%char :: r)).
    { rewrite repeat_snoc. exact P. }
    rewrite (IH f stk s (S off) _ P1) by lia. cbn [bind].
    rewrite app_assoc in P1. apply pos_app in P1. rewrite app_length, !repeat_length in P1.
    replace (S off + (S n + S n)) with (S off + 2 * S n) in P1 by lia.
    rewrite (skip_at _ _ _ _ P1 eq_refl). cbn [bind]. rewrite (pos_at _ _ _ _ P1). cbn [bind].
    change (Ascii.eqb "]" ",") with false. change (Ascii.eqb "]" "]") with true. cbv iota. cbn [deep_array app].
    replace (S (S off + 2 * S n)) with (off + 2 * S (S n)) by lia. reflexivity.
Qed.
Lemma deep_object_nodes n : nodes (@deep_object F n) = S n.
Proof. induction n as [|n IH]; [reflexivity|]. cbn [deep_object nodes fold_right snd]. rewrite IH. lia. Qed.
Lemma nested_len n : length (nested n) = 5 * n + 2.
Proof. induction n as [|n IH]; [reflexivity|]. cbn [nested]. rewrite !app_length, IH. cbn [length]. lia. Qed.
Lemma nested_hd n : exists t, nested n = "{"%char :: t.
Proof. destruct n; eexists; reflexivity. Qed.
Fixpoint tri (n : nat) : nat := match n with O => 0 | S n => tri n + S n end.
Lemma tri_eq n : 2 * tri n = n * (n + 1).
Proof. induction n as [|n IH]; [reflexivity|]. cbn [tri]. lia. Qed.
Lemma objects_fit n : forall f stk s off r, pos s off (nested n ++ r) ->
  2 * n + 1 <= f -> S n <= stk -> next_c D f stk s off = Ok (deep_object n, off + (5 * n + 2), tri n).
Proof.
  induction n as [|n IH]; intros f stk s off r P L LS; (destruct f as [|f]; [lia|]); (destruct stk as [|stk]; [lia|]);
    rewrite next_c_unfold; cbn [nested app] in P;
    rewrite (skip_at _ _ _ _ P eq_refl); cbn [bind]; rewrite (pos_at _ _ _ _ P); cbn [bind];
    change (Ascii.eqb "{" "[") with false; change (Ascii.eqb "{" "{") with true; cbv iota; apply pos_S in P;
    rewrite (skip_at _ _ _ _ P eq_refl); cbn [bind]; rewrite (pos_at _ _ _ _ P); cbn [bind].
  - change (Ascii.eqb "}" "}") with true. cbv iota. cbn [deep_object tri]. repeat f_equal. lia.
  - change (Ascii.eqb DQ "}") with false. cbv iota. destruct f as [|f]; [lia|]. destruct stk as [|stk]; [lia|].
    rewrite obj_c_unfold.
    assert (K : next_c D f (S stk) s (S off) = Ok (JStr [], S off + 2, 0)).
    { destruct f as [|f]; [lia|]. rewrite next_c_unfold.
      rewrite (skip_at _ _ _ _ P eq_refl). cbn [bind]. rewrite (pos_at _ _ _ _ P). cbn [bind].
      change (Ascii.eqb DQ "[") with false. change (Ascii.eqb DQ "{") with false. change (Ascii.eqb DQ DQ) with true. cbv iota.
      rewrite (@parse_string_escape F [] _ _ _ P). unfold no_copy. cbn [bind]. repeat f_equal. }
    rewrite K. cbn [bind].
    pose proof (pos_app s (S off) [DQ; DQ] _ P) as P2. cbn [length] in P2.
    rewrite (skip_at _ _ _ _ P2 eq_refl). cbn [bind]. rewrite (pos_at _ _ _ _ P2). cbn [bind].
    change (Ascii.eqb ":" ":") with true. cbv iota. apply pos_S in P2.
    rewrite <- app_assoc in P2. cbn [app] in P2.
    assert (SK : skip_whitespaces s (S (S off + 2)) = Ok (S (S off + 2))).
    { destruct (nested_hd n) as [t E]. rewrite E in P2. exact (skip_at _ _ _ _ P2 eq_refl). }
    rewrite SK. cbn [bind]. rewrite (IH f (S stk) s _ _ P2) by lia. cbn [bind].
    apply pos_app in P2. rewrite nested_len in P2.
    rewrite (skip_at _ _ _ _ P2 eq_refl). cbn [bind]. rewrite (pos_at _ _ _ _ P2). cbn [bind].
    change (Ascii.eqb "}" ",") with false. change (Ascii.eqb "}" "}") with true. cbv iota.
    cbn [deep_object map_set toString jsonEscape tri]. rewrite copied_nodes, deep_object_nodes.
    replace (S (S (S off + 2) + (5 * n + 2))) with (off + (5 * S n + 2)) by lia.
    replace (0 + 0 + tri n + S n) with (tri n + S n) by lia. reflexivity.
Qed.

(** ** more stack never changes a result *)
Definition ub_le {A} (a b : outcome A) : Prop := a = UB \/ b = a.
Lemma ub_bind {A B} (a b : outcome A) (k k' : A -> outcome B) :
  ub_le a b -> (forall x, ub_le (k x) (k' x)) -> ub_le (bind a k) (bind b k').
Proof. intros [-> | ->] H; [left; reflexivity|]. destruct a as [x| | |]; cbn [bind]; [apply H|right; reflexivity..]. Qed.
Lemma ub_same {A} (a : outcome A) : ub_le a a.
Proof. right. reflexivity. Qed.
Lemma ub_if {A} (c : bool) (a b a' b' : outcome A) : ub_le a a' -> ub_le b b' -> ub_le (if c then a else b) (if c then a' else b').
Proof. destruct c; auto. Qed.
Lemma more_stack f : forall stk stk' s, stk <= stk' ->
  (forall off, ub_le (next_c D f stk s off) (next_c D f stk' s off)) /\
  (forall off acc k, ub_le (obj_c D f stk s off acc k) (obj_c D f stk' s off acc k)) /\
  (forall off acc k, ub_le (arr_c D f stk s off acc k) (arr_c D f stk' s off acc k)).
Proof.
  induction f as [|f IH]; intros stk stk' s L; [split; [|split]; intros; apply ub_same|].
  destruct (IH stk stk' s L) as (IN & IO & IA). split; [|split].
  - intros off. destruct stk as [|stk]; [left; reflexivity|]. destruct stk' as [|stk']; [lia|].
    destruct (IH stk stk' s ltac:(lia)) as (JN & JO & JA). rewrite !next_c_unfold.
    apply ub_bind; [apply ub_same|]. intros o1. apply ub_bind; [apply ub_same|]. intros c.
    apply ub_if; [|apply ub_if; [|apply ub_same]];
      (apply ub_bind; [apply ub_same|]; intros o2; apply ub_bind; [apply ub_same|]; intros c2; apply ub_if; [apply ub_same|auto]).
  - intros off acc k. rewrite !obj_c_unfold. apply ub_bind; [apply IN|]. intros [[key o1] k1].
    apply ub_bind; [apply ub_same|]. intros o2. apply ub_bind; [apply ub_same|]. intros c. apply ub_if; [|apply ub_same].
    apply ub_bind; [apply ub_same|]. intros o3. apply ub_bind; [apply IN|]. intros [[v o4] k2].
    apply ub_bind; [apply ub_same|]. intros o5. apply ub_bind; [apply ub_same|]. intros c5. apply ub_if; [apply IO|apply ub_same].
  - intros off acc k. rewrite !arr_c_unfold. apply ub_bind; [apply IN|]. intros [[v o4] k2].
    apply ub_bind; [apply ub_same|]. intros o5. apply ub_bind; [apply ub_same|]. intros c5. apply ub_if; [apply IA|apply ub_same].
Qed.
Lemma load_more stk stk' s : stk <= stk' -> load_c D stk s <> UB -> load_c D stk' s = load_c D stk s.
Proof.
  intros L H. unfold load_c in *. destruct (proj1 (more_stack (2 * length s + 3) stk stk' s L) 0) as [E|E].
  - rewrite E in H. now contradiction H.
  - now rewrite E.
Qed.

(** ** loadJSON *)
Lemma load_same stk s : openings s < stk -> omap fst (load_c D stk s) = loadJSON D s.
Proof.
  intros H. unfold load_c, loadJSON. rewrite <- (proj1 (all_same _ s) stk 0 H).
  destruct (next_c _ _ _ _ _) as [[[v e] k]| | |]; reflexivity.
Qed.
Lemma load_ok stk s v k : load_c D stk s = Ok (v, k) ->
  loadJSON D s = Ok v /\ height v <= stk /\ member_work v <= k /\ k <= braces s * (length s + 1).
Proof.
  unfold load_c. destruct (next_c _ _ _ _ _) as [[[v' e] k']| | |] eqn:N; cbn [bind]; try discriminate. intros [= -> ->].
  apply (proj1 (all_good _ s)) in N. destruct N as [E (L & _ & H & W & K)].
  split; [unfold loadJSON; rewrite E; reflexivity|]. split; [assumption|]. split; [assumption|].
  etransitivity; [exact K|]. change (brs s 0) with (braces s). apply Nat.mul_le_mono; lia.
Qed.
Lemma load_arrays_fit stk n : n < stk -> load_c D stk (brackets (S n)) = Ok (deep_array n, 0).
Proof.
  intros L. unfold load_c. erewrite (arrays_fit n); [reflexivity| | |lia].
  - instantiate (1 := []). rewrite app_nil_r. apply pos_0.
  - unfold brackets. rewrite app_length, !repeat_length. lia.
Qed.
Lemma load_arrays_over stk n r : stk < n -> load_c D stk (repeat "["%char n ++ r) = UB.
Proof.
  intros L. unfold load_c. rewrite (arrays_over stk _ _ 0 (repeat "["%char (n - S stk) ++ r)); [reflexivity| |].
  - rewrite app_assoc, <- repeat_app. replace (S stk + (n - S stk)) with n by lia. apply pos_0.
  - rewrite app_length, repeat_length. lia.
Qed.
Lemma load_nested stk n : n < stk -> load_c D stk (nested n) = Ok (deep_object n, tri n).
Proof.
  intros L. unfold load_c. erewrite (objects_fit n); [reflexivity| | |lia].
  - instantiate (1 := []). rewrite app_nil_r. apply pos_0.
  - rewrite nested_len. lia.
Qed.
End Main.
