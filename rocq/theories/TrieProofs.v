From Verif Require Import Base TrieModel.
Local Open Scope Z_scope.

(** ** The arrays as total functions *)
Definition at_ (a : list Z) (x : Z) : Z := if x <? 0 then -1 else nth (Z.to_nat x) a (-1).
Definition tat (a : list bytes) (p : Z) : bytes := nth (Z.to_nat p) a [].

Lemma at_live a x : at_ a x <> -1 -> 0 <= x < Z.of_nat (length a).
Proof.
  unfold at_. destruct (Z.ltb_spec x 0); [lia|]. intros H1.
  destruct (Z_lt_dec x (Z.of_nat (length a))); [lia|]. exfalso. apply H1. apply nth_overflow. lia.
Qed.
Lemma iget_at a x : 0 <= x < Z.of_nat (length a) -> iget a x = Ok (at_ a x).
Proof.
  intros H. unfold iget, get, at_. rewrite (aget_ok a x (-1)) by assumption.
  destruct (Z.ltb_spec x 0); [lia|reflexivity].
Qed.
Lemma iget_live a x : at_ a x <> -1 -> iget a x = Ok (at_ a x).
Proof. intros H. apply iget_at, at_live, H. Qed.
Lemma igetc_at a x : 0 <= x -> igetc a x = Ok (at_ a x).
Proof.
  intros H. unfold igetc, getWithCheck. destruct (Z.ltb_spec x (Z.of_nat (length a))).
  - apply iget_at. lia.
  - unfold at_. destruct (Z.ltb_spec x 0); [lia|]. now rewrite nth_overflow by lia.
Qed.
Lemma nth_app_repeat {A} (a : list A) k (d : A) i : nth i (a ++ repeat d k) d = nth i a d.
Proof.
  destruct (Nat.lt_ge_cases i (length a)).
  - now apply app_nth1.
  - rewrite app_nth2 by assumption. rewrite (nth_overflow a) by assumption. apply nth_repeat.
Qed.
Lemma set_spec {A} (init : Z) (d : A) a x v : 0 <= init -> 0 <= x ->
  exists a', set init d a x v = Ok a' /\ (forall i, nth i a' d = if Nat.eqb i (Z.to_nat x) then v else nth i a d) /\
    (length a <= length a')%nat /\ x < Z.of_nat (length a').
Proof.
  intros Hi Hx. unfold set.
  set (e := if _ <=? x then _ else a).
  assert (E1 : forall i, nth i e d = nth i a d).
  { intros i. unfold e. destruct (_ <=? x); [apply nth_app_repeat|reflexivity]. }
  assert (E2 : (length a <= length e)%nat /\ x < Z.of_nat (length e)).
  { unfold e. destruct (Z.leb_spec (Z.of_nat (length a)) x); [rewrite app_length, repeat_length|]; lia. }
  clearbody e. exists (upd e (Z.to_nat x) v). rewrite aset_ok by lia. split; [reflexivity|]. rewrite upd_length. split; [|lia].
  intros i. destruct (Nat.eqb_spec i (Z.to_nat x)) as [->|N].
  - apply nth_upd_eq. lia.
  - rewrite nth_upd_neq by auto. apply E1.
Qed.
Lemma iset_at a x v : 0 <= x -> exists a', iset a x v = Ok a' /\ (forall y, at_ a' y = if y =? x then v else at_ a y) /\
  (length a <= length a')%nat /\ x < Z.of_nat (length a').
Proof.
  intros H. destruct (set_spec 26 (-1) a x v ltac:(lia) H) as (a' & E & N & L). exists a'. split; [exact E|]. split; [|exact L].
  intros y. unfold at_. destruct (Z.ltb_spec y 0).
  - destruct (Z.eqb_spec y x); [lia|reflexivity].
  - rewrite N. destruct (Z.eqb_spec y x) as [->|].
    + now rewrite Nat.eqb_refl.
    + destruct (Nat.eqb_spec (Z.to_nat y) (Z.to_nat x)); [lia|reflexivity].
Qed.
Lemma tset_at a x v : 0 <= x -> exists a', tset a x v = Ok a' /\ (forall y, 0 <= y -> tat a' y = if y =? x then v else tat a y) /\
  (length a <= length a')%nat /\ x < Z.of_nat (length a').
Proof.
  intros H. destruct (set_spec 0 [] a x v ltac:(lia) H) as (a' & E & N & L). exists a'. split; [exact E|]. split; [|exact L].
  intros y Hy. unfold tat. rewrite N. destruct (Z.eqb_spec y x) as [->|].
  - now rewrite Nat.eqb_refl.
  - destruct (Nat.eqb_spec (Z.to_nat y) (Z.to_nat x)); [lia|reflexivity].
Qed.
Lemma tget_at a p : 0 <= p < Z.of_nat (length a) -> aget a p = Ok (tat a p).
Proof. intros H. now apply aget_ok. Qed.
Lemma tgetc_at a p : 0 <= p < Z.of_nat (length a) -> tgetc a p = Ok (tat a p).
Proof. intros H. unfold tgetc, getWithCheck. destruct (_ <? _) eqn:E; [now apply tget_at|]. apply Z.ltb_ge in E. unfold bytes in *. lia. Qed.

(** the symbols accepted by a mapping, with their codes *)
Class Alphabet := {
  code : ascii -> Z; alpha : ascii -> Prop;
  alpha_end : alpha endChar; code_end : code endChar = 1;
  code_range : forall ch, alpha ch -> 1 <= code ch <= 27;
  code_inj : forall a b, alpha a -> alpha b -> code a = code b -> a = b }.

Section Alphabet.
Context {AL : Alphabet}.

(** letters: symbols of the alphabet other than the end mark *)
Definition letter (ch : ascii) : Prop := alpha ch /\ ch <> endChar.
(** a word followed by the end mark *)
Inductive term : bytes -> Prop :=
| term_end : term [endChar]
| term_cons ch s : letter ch -> term s -> term (ch :: s).

Lemma term_word w : Forall letter w -> term (w ++ [endChar]).
Proof. induction 1; [constructor|now constructor]. Qed.
Lemma term_nonempty : ~ term [].
Proof. intros H. inversion H. Qed.
Lemma term_alpha ch s : term (ch :: s) -> alpha ch.
Proof. intros H. inversion H; subst; [apply alpha_end|firstorder]. Qed.
Lemma term_rest ch s : term (ch :: s) -> (ch = endChar /\ s = []) \/ (letter ch /\ term s).
Proof. intros H. inversion H; subst; [now left|now right]. Qed.

(** ** Pure layer: the double array as functions *)
Inductive path (B C : Z -> Z) : Z -> bytes -> Prop :=
| path_root : path B C 0 []
| path_step p w x ch : path B C p w -> C x = p -> alpha ch -> x = B p + code ch -> path B C x (w ++ [ch]).

Record Inv (B C : Z -> Z) (T : Z -> bytes) (ps : Z) (fr : list Z) (h : Z) : Prop := {
  i_root : C 0 = -1 /\ 0 <= B 0 /\ h <> 0;
  i_par : forall x, C x <> -1 -> 0 <= C x /\ C x <> h /\ 0 <= B (C x) /\ exists ch, alpha ch /\ x = B (C x) + code ch;
  i_kind : forall x ch, C x <> -1 -> x <> h -> alpha ch -> x = B (C x) + code ch ->
    (ch = endChar -> B x = -1 \/ (B x < -1 /\ T (- B x - 2) = [])) /\
    (ch <> endChar -> 0 <= B x \/ (B x < -1 /\ term (T (- B x - 2))));
  i_hole : h <> -1 -> C h <> -1 /\ forall ch, alpha ch -> h = B (C h) + code ch -> ch <> endChar;
  i_reach : forall x, C x <> -1 -> exists w, path B C x w;
  i_slot : forall x y, C x <> -1 -> C y <> -1 -> x <> h -> y <> h -> B x < -1 -> B y = B x -> x = y;
  i_owned : forall x, C x <> -1 -> x <> h -> B x < -1 -> - B x - 2 < ps /\ ~ In (- B x - 2) fr;
  i_free : NoDup fr /\ (forall p, In p fr -> 0 <= p < ps) /\ 0 <= ps
}.

(** the words stored: full texts with the end mark; the node [h] is left out *)
Definition has (B C : Z -> Z) (T : Z -> bytes) (h : Z) (s : bytes) : Prop :=
  exists x w1 w2, s = w1 ++ w2 /\ path B C x w1 /\ C x <> -1 /\ x <> h /\
    ((B x = -1 /\ w2 = []) \/ (B x < -1 /\ w2 = T (- B x - 2))).

(** a tail slot nobody uses *)
Definition fresh (B C : Z -> Z) (ps : Z) (fr : list Z) (h p : Z) : Prop :=
  0 <= p < ps /\ ~ In p fr /\ forall x, C x <> -1 -> x <> h -> B x < -1 -> - B x - 2 <> p.

Section Pure.
Context {B C : Z -> Z} {T : Z -> bytes} {ps : Z} {fr : list Z} {h : Z} (I : Inv B C T ps fr h).

Lemma inv_pos x : C x <> -1 -> 0 < x.
Proof. intros H. destruct (i_par _ _ _ _ _ _ I x H) as (_ & _ & P & ch & A & E). pose proof (code_range ch A). lia. Qed.
Lemma path_nonneg x w : path B C x w -> 0 <= x.
Proof.
  induction 1 as [|p w x ch P IH E A X]; [lia|].
  destruct (Z.eq_dec (C x) (-1)); [lia|]. pose proof (inv_pos x n). lia.
Qed.
Lemma path_live x w : path B C x w -> x = 0 /\ w = [] \/ C x <> -1.
Proof. intros H. destruct H as [|p w x ch P E A X]; [now left|right]. apply path_nonneg in P. lia. Qed.
Lemma path_cases x w : path B C x w ->
  (x = 0 /\ w = []) \/ exists v ch, w = v ++ [ch] /\ path B C (C x) v /\ alpha ch /\ x = B (C x) + code ch.
Proof. intros H. destruct H as [|p w x ch P E A X]; [now left|right]. exists w, ch. subst p. auto. Qed.
Lemma root_not_step v : ~ path B C (C 0) v.
Proof. intros P. apply path_nonneg in P. rewrite (proj1 (i_root _ _ _ _ _ _ I)) in P. lia. Qed.
Lemma path_word x : forall w, path B C x w -> forall w', path B C x w' -> w = w'.
Proof.
  intros w H. induction H as [|p w x ch P IH E A X]; intros w' H'; apply path_cases in H' as [[H1 H2]|(v & c & H1 & H2 & H3 & H4)].
  - now subst.
  - now apply root_not_step in H2.
  - rewrite <- E, H1 in P. now apply root_not_step in P.
  - subst p w'. f_equal; [now apply IH|]. f_equal. apply code_inj; auto. lia.
Qed.
Lemma app_last_inj {X} (u v : list X) a b : u ++ [a] = v ++ [b] -> u = v /\ a = b.
Proof. intros H. apply app_inj_tail in H. exact H. Qed.
Lemma path_inv x w ch : path B C x (w ++ [ch]) -> path B C (C x) w /\ alpha ch /\ x = B (C x) + code ch.
Proof.
  intros H. apply path_cases in H as [[_ H]|(v & c & H & H')]; [now destruct w|]. apply app_last_inj in H as [-> ->]. exact H'.
Qed.
Lemma path_nil x : path B C x [] -> x = 0.
Proof. intros H. apply path_cases in H as [[H _]|(v & c & H & _)]; [assumption|now destruct v]. Qed.
Lemma path_node w : forall x, path B C x w -> forall y, path B C y w -> x = y.
Proof.
  induction w as [|ch w IH] using rev_ind; intros x H y H'.
  - apply path_nil in H, H'. congruence.
  - apply path_inv in H as (P & _ & X), H' as (P' & _ & X'). rewrite X, X', (IH _ P _ P'). reflexivity.
Qed.
(** children of dead nodes, leaves and the hole do not exist *)
Lemma no_child x y : C y = x -> x <> -1 -> x <> h /\ 0 <= B x /\ (x = 0 \/ C x <> -1).
Proof.
  intros <- L. destruct (i_par _ _ _ _ _ _ I y L) as (_ & P1 & P2 & _).
  split; [assumption|]. split; [assumption|]. destruct (i_reach _ _ _ _ _ _ I y L) as [w P].
  apply path_cases in P as [[-> _]|(v & c & _ & P & _)]; [now destruct (i_root _ _ _ _ _ _ I)|].
  apply path_live in P. tauto.
Qed.

(** the characters behind node [x]: everything below it *)
Lemma has_term s : has B C T h s -> term s.
Proof.
  intros (x & w1 & w2 & -> & P & L & N & K).
  assert (G : forall w x, path B C x w -> C x <> -1 -> 0 <= B x \/ x = h -> Forall letter w).
  { induction w as [|ch w IH] using rev_ind; intros y Py Ly Hy; [constructor|].
    apply path_inv in Py as (Pp & A & X).
    apply Forall_app. split.
    - destruct (no_child (C y) y eq_refl Ly) as (_ & B0 & [Z0|Lp]).
      + rewrite Z0 in Pp. assert (w = []) as -> by (eapply path_word; [exact Pp|constructor]). constructor.
      + apply IH with (C y); auto.
    - constructor; [|constructor]. split; [assumption|]. intros ->.
      destruct (Z.eq_dec y h) as [->|Nh].
      + destruct (i_hole _ _ _ _ _ _ I) as [_ Hh]; [pose proof (inv_pos _ Ly); lia|]. now apply (Hh endChar).
      + destruct (i_kind _ _ _ _ _ _ I y endChar Ly Nh A X) as [K1 _]. destruct (K1 eq_refl); destruct Hy; lia. }
  assert (Forall letter (removelast w1) /\ exists ch, w1 = removelast w1 ++ [ch] /\ alpha ch /\ x = B (C x) + code ch) as [F (ch & E & A & X)].
  { destruct w1 as [|ch w _] using rev_ind.
    - exfalso. assert (x = 0) by (eapply path_node; [exact P|constructor]). subst. now rewrite (proj1 (i_root _ _ _ _ _ _ I)) in L.
    - rewrite removelast_last. apply path_inv in P as (Pp & A & X). split; [|eauto].
      destruct (no_child (C x) x eq_refl L) as (_ & B0 & [Z0|Lp]).
      + rewrite Z0 in Pp. assert (w = []) as -> by (eapply path_word; [exact Pp|constructor]). constructor.
      + apply G with (C x); auto. }
  rewrite E, <- app_assoc. cbn [app]. destruct (i_kind _ _ _ _ _ _ I x ch L N A X) as [K1 K2].
  assert (TT : forall u v, Forall letter u -> term v -> term (u ++ v)).
  { intros u v Hu Hv. induction Hu; [assumption|]. cbn [app]. now constructor. }
  apply TT; [assumption|]. destruct (ascii_dec ch endChar) as [->|Nc].
  - destruct (K1 eq_refl) as [Bx|[Bx Tx]]; destruct K as [[K ->]|[K ->]]; try lia; try rewrite Tx; constructor.
  - destruct (K2 Nc) as [Bx|[Bx Tx]]; destruct K as [[K ->]|[K ->]]; try lia. constructor; [split; assumption|assumption].
Qed.
End Pure.

Ltac rt I := destruct (i_root _ _ _ _ _ _ I) as (?RC & ?RB & ?RH).

Lemma inv_path_nonneg B C T ps fr h x w : Inv B C T ps fr h -> path B C x w -> 0 <= x.
Proof. intros I. now apply (path_nonneg I). Qed.

(** *** Renaming nodes *)
Lemma transport B C T ps fr B' C' ren : Inv B C T ps fr (-1) ->
  ren 0 = 0 -> C' 0 = -1 ->
  (forall y, y = 0 \/ C y <> -1 -> 0 <= ren y) ->
  (forall y, C y <> -1 -> C' (ren y) = ren (C y)) ->
  (forall y, y = 0 \/ C y <> -1 -> B' (ren y) = B y \/ (0 <= B y /\ 0 <= B' (ren y))) ->
  (forall y, C' y <> -1 -> exists z, C z <> -1 /\ y = ren z) ->
  (forall y z, y = 0 \/ C y <> -1 -> z = 0 \/ C z <> -1 -> ren y = ren z -> y = z) ->
  (forall x ch, C x <> -1 -> alpha ch -> x = B (C x) + code ch <-> ren x = B' (ren (C x)) + code ch) ->
  Inv B' C' T ps fr (-1) /\ (forall y w, path B C y w -> path B' C' (ren y) w) /\
  forall s, has B' C' T (-1) s <-> has B C T (-1) s.
Proof.
  intros I R0 R0' RN R1 R2 R3 R4 R5.
  assert (PL : forall y w, path B C y w -> y = 0 \/ C y <> -1).
  { intros y w P. destruct (path_live I _ _ P) as [[? _]|]; auto. }
  assert (PAR : forall y, C y <> -1 -> C y = 0 \/ C (C y) <> -1).
  { intros y L. now destruct (no_child I (C y) y eq_refl L) as (_ & _ & ?). }
  assert (F : forall y w, path B C y w -> path B' C' (ren y) w).
  { intros y w P. induction P as [|p w x ch P IH E A X]; [rewrite R0; constructor|].
    pose proof (path_nonneg I _ _ P). assert (L : C x <> -1) by lia. apply path_step with (ren p); auto.
    - rewrite R1, E by assumption. reflexivity.
    - subst p. now apply R5. }
  assert (G : forall y' w, path B' C' y' w -> exists y, y' = ren y /\ path B C y w).
  { intros y' w P. induction P as [|p w x ch P IH E A X]; [exists 0; split; [auto|constructor]|].
    destruct IH as (y & -> & Py). pose proof (RN y (PL _ _ Py)). destruct (R3 x ltac:(lia)) as (z & Lz & ->). exists z.
    split; [reflexivity|]. rewrite R1 in E by assumption. apply R4 in E; [|auto|eauto].
    rewrite <- E in X. apply R5 in X; [|assumption..]. subst y. apply path_step with (C z); auto. }
  assert (BB : forall y, y = 0 \/ C y <> -1 -> B' (ren y) < 0 -> B' (ren y) = B y).
  { intros y L N. destruct (R2 y L) as [|[? ?]]; [assumption|lia]. }
  assert (BB' : forall y, y = 0 \/ C y <> -1 -> B y < 0 -> B' (ren y) = B y).
  { intros y L N. destruct (R2 y L) as [|[? ?]]; [assumption|lia]. }
  assert (BP : forall y, y = 0 \/ C y <> -1 -> 0 <= B y -> 0 <= B' (ren y)).
  { intros y L N. destruct (R2 y L) as [|[? ?]]; lia. }
  split; [|split; [assumption|]].
  - constructor.
    + rt I. split; [assumption|]. split; [|lia]. pose proof (BP 0 (or_introl eq_refl) RB) as Q. now rewrite R0 in Q.
    + intros x L. destruct (R3 x L) as (z & Lz & ->). rewrite R1 by assumption.
      destruct (i_par _ _ _ _ _ _ I z Lz) as (P1 & P2 & P3 & ch & A & X). specialize (PAR z Lz). pose proof (RN _ PAR).
      split; [assumption|]. split; [lia|]. split; [now apply BP|]. exists ch. split; [assumption|]. now apply R5.
    + intros x ch L _ A X. destruct (R3 x L) as (z & Lz & ->). rewrite R1 in X by assumption. apply R5 in X; [|assumption..].
      destruct (i_kind _ _ _ _ _ _ I z ch Lz ltac:(pose proof (inv_pos I _ Lz); lia) A X) as [K1 K2]. split; intros N.
      * destruct (K1 N) as [K|[K K']]; [left|right]; rewrite BB' by (auto; lia); auto.
      * destruct (K2 N) as [K|[K K']]; [left; apply BP; auto|right]. rewrite BB' by (auto; lia); auto.
    + intros N. lia.
    + intros x L. destruct (R3 x L) as (z & Lz & ->). destruct (i_reach _ _ _ _ _ _ I z Lz) as [w P]. eauto.
    + intros x y Lx Ly _ _ N E. destruct (R3 x Lx) as (z & Lz & ->), (R3 y Ly) as (z' & Lz' & ->). f_equal.
      rewrite !BB in E by (auto; lia). rewrite BB in N by (auto; lia).
      pose proof (inv_pos I _ Lz). pose proof (inv_pos I _ Lz'). apply (i_slot _ _ _ _ _ _ I); auto; lia.
    + intros x L _ N. destruct (R3 x L) as (z & Lz & ->). rewrite BB in * by (auto; lia). apply (i_owned _ _ _ _ _ _ I); auto.
      pose proof (inv_pos I _ Lz). lia.
    + exact (i_free _ _ _ _ _ _ I).
  - intros s. split; intros (x & w1 & w2 & -> & P & L & N & K).
    + destruct (G _ _ P) as (z & -> & Pz). destruct (R3 _ L) as (z' & Lz & E).
      assert (z = z') as -> by (apply R4; eauto). exists z', w1, w2. pose proof (inv_pos I _ Lz).
      split; [reflexivity|]. split; [assumption|]. split; [assumption|]. split; [lia|].
      destruct K as [[K ->]|[K ->]]; rewrite BB in * by (auto; lia); auto.
    + exists (ren x), w1, w2. split; [reflexivity|]. split; [auto|]. 
      assert (L' : C' (ren x) <> -1) by (rewrite R1 by assumption; pose proof (RN _ (PAR _ L)); lia).
      split; [assumption|]. pose proof (RN x (or_intror L)). split; [lia|].
      destruct K as [[K ->]|[K ->]]; rewrite !BB' by (auto; lia); auto.
Qed.

(** *** Adding a node *)
Lemma add_node B C T ps fr n w ch x B' C' T' h' rest : Inv B C T ps fr (-1) ->
  path B C n w -> 0 <= B n -> alpha ch -> x = B n + code ch -> C x = -1 ->
  (forall y, y <> x -> B' y = B y) -> (forall y, C' y = if y =? x then n else C y) ->
  (forall y, C y <> -1 -> B y < -1 -> T' (- B y - 2) = T (- B y - 2)) ->
  (h' = x /\ ch <> endChar) \/
  (h' = -1 /\ (ch = endChar -> B' x = -1 \/ (B' x < -1 /\ T' (- B' x - 2) = [])) /\
     (ch <> endChar -> B' x < -1 /\ term (T' (- B' x - 2))) /\
     (B' x < -1 -> (forall y, C y <> -1 -> B y <> B' x) /\ - B' x - 2 < ps /\ ~ In (- B' x - 2) fr) /\
     rest = (if B' x =? -1 then [] else T' (- B' x - 2))) ->
  Inv B' C' T' ps fr h' /\ (forall y v, path B C y v -> path B' C' y v) /\ path B' C' x (w ++ [ch]) /\
  (forall s, has B' C' T' h' s <-> has B C T (-1) s \/ (h' = -1 /\ s = w ++ ch :: rest)).
Proof.
  intros I Pn Bn A X Cx HB HC HT K. rt I. pose proof (code_range ch A) as CR. pose proof (path_nonneg I _ _ Pn) as Nn.
  assert (NX : n <> x). { intros ->. destruct (path_live I _ _ Pn) as [[? _]|]; lia. }
  assert (LX : forall y, y = 0 \/ C y <> -1 -> y <> x) by (intros y Q E; rewrite E in Q; destruct Q; lia).
  assert (CO : forall y, y <> x -> C' y = C y) by (intros y N; rewrite HC; destruct (Z.eqb_spec y x); congruence).
  assert (CX : C' x = n) by (rewrite HC, Z.eqb_refl; reflexivity).
  assert (LO : forall y, C y <> -1 -> C' y = C y /\ B' y = B y) by (intros y L; split; [apply CO|apply HB]; auto).
  assert (LV : forall y, C' y <> -1 -> y = x \/ (y <> x /\ C y <> -1 /\ C' y = C y /\ B' y = B y)).
  { intros y L. destruct (Z.eq_dec y x); [auto|]. right. pose proof (CO _ n0). rewrite HB by assumption. split; [assumption|]. split; [congruence|]. split; [assumption|reflexivity]. }
  assert (PAR : forall y, C y <> -1 -> B' (C y) = B (C y) /\ C y <> x /\ 0 <= C y).
  { intros y L. destruct (no_child I (C y) y eq_refl L) as (_ & _ & Q). apply LX in Q. split; [auto|]. split; [assumption|].
    now destruct (i_par _ _ _ _ _ _ I y L). }
  assert (BN : B' n = B n) by auto.
  assert (F : forall y v, path B C y v -> path B' C' y v).
  { intros y v P. induction P as [|p v y c P IH E Ac Y]; [constructor|]. pose proof (path_nonneg I _ _ P).
    assert (L : C y <> -1) by lia. destruct (PAR y L) as (E1 & E2 & E3).
    apply path_step with p; auto; [now rewrite (proj1 (LO y L))|]. rewrite <- E, E1, E. assumption. }
  assert (PX : path B' C' x (w ++ [ch])) by (apply path_step with n; auto; congruence).
  assert (G : forall y v, path B' C' y v -> path B C y v \/ (y = x /\ v = w ++ [ch])).
  { intros y v P. induction P as [|p v y c P IH E Ac Y]; [left; constructor|].
    destruct IH as [Pp|[-> ->]].
    - pose proof (path_nonneg I _ _ Pp). destruct (LV y) as [->|(N & L & E1 & E2)]; [lia| |].
      + right. split; [reflexivity|]. assert (p = n) as -> by congruence. f_equal; [now apply (path_word I n)|]. f_equal.
        apply code_inj; auto. rewrite BN in Y. lia.
      + left. apply path_step with p; auto; [congruence|]. destruct (PAR y L) as (E3 & _ & _). rewrite <- E1, E in E3. congruence.
    - exfalso. destruct (LV y) as [->|(N & L & E1 & E2)]; [lia|congruence|]. destruct (PAR y L) as (_ & Q & _). congruence. }
  assert (PXW : forall v, path B' C' x v -> v = w ++ [ch]).
  { intros v P. destruct (G _ _ P) as [Q|[_ Q]]; [|assumption]. destruct (path_live I _ _ Q) as [[? _]|]; [lia|congruence]. }
  assert (HX : h' = x \/ h' = -1) by tauto.
  split; [|split; [assumption|split; [assumption|]]].
  - constructor.
    + split; [rewrite CO by (apply LX; auto); assumption|]. split; [rewrite HB by (apply LX; auto); assumption|lia].
    + intros y L. destruct (LV y L) as [->|(N & Ly & E1 & E2)].
      * rewrite CX, BN. split; [lia|]. split; [lia|]. split; [assumption|]. eauto.
      * rewrite E1. destruct (PAR y Ly) as (E3 & E4 & E5). rewrite E3.
        destruct (i_par _ _ _ _ _ _ I y Ly) as (Q1 & Q2 & Q3 & Q4). split; [assumption|]. split; [lia|]. auto.
    + intros y c L N Ac Y. destruct (LV y L) as [->|(N' & Ly & E1 & E2)].
      * assert (c = ch) as -> by (apply code_inj; auto; rewrite CX, BN in Y; lia).
        destruct K as [[K _]|(K & K1 & K2 & _)]; [congruence|]. split; [assumption|]. intros Q. right. auto.
      * rewrite E1, (proj1 (PAR y Ly)) in Y. rewrite E2.
        pose proof (inv_pos I _ Ly). destruct (i_kind _ _ _ _ _ _ I y c Ly ltac:(lia) Ac Y) as [K1 K2].
        split; intros Q; [destruct (K1 Q) as [|[Q1 Q2]]|destruct (K2 Q) as [|[Q1 Q2]]]; auto; right; rewrite HT by assumption; auto.
    + intros N. destruct HX as [->|]; [|lia]. destruct K as [[_ K]|[K _]]; [|lia]. rewrite CX. split; [lia|].
      intros c Ac Y. rewrite BN in Y. assert (c = ch) as -> by (apply code_inj; auto; lia). assumption.
    + intros y L. destruct (LV y L) as [->|(N' & Ly & E1 & E2)]; [eauto|].
      destruct (i_reach _ _ _ _ _ _ I y Ly) as [v P]. eauto.
    + intros y z Ly Lz Ny Nz Q E.
      destruct (LV y Ly) as [->|(N1 & L1 & E1 & E1')], (LV z Lz) as [->|(N2 & L2 & E2 & E2')].
      * reflexivity.
      * destruct K as [[K _]|(K & _ & _ & K3 & _)]; [congruence|]. destruct (K3 Q) as [K4 _]. exfalso. apply (K4 z L2). congruence.
      * destruct K as [[K _]|(K & _ & _ & K3 & _)]; [congruence|]. destruct (K3 ltac:(lia)) as [K4 _]. exfalso. apply (K4 y L1). congruence.
      * clear K. pose proof (inv_pos I _ L1). pose proof (inv_pos I _ L2). rewrite E1' in *. rewrite E2' in *.
        apply (i_slot _ _ _ _ _ _ I y z L1 L2); [lia|lia|assumption|congruence].
    + intros y L N Q. destruct (LV y L) as [->|(N1 & L1 & E1 & E1')].
      * destruct K as [[K _]|(K & _ & _ & K3 & _)]; [congruence|]. now destruct (K3 Q) as [_ K4].
      * rewrite E1' in *. pose proof (inv_pos I _ L1). apply (i_owned _ _ _ _ _ _ I); auto. lia.
    + exact (i_free _ _ _ _ _ _ I).
  - intros s. split.
    + intros (y & w1 & w2 & -> & P & L & N & Q). destruct (LV y L) as [->|(N1 & L1 & E1 & E1')].
      * right. destruct HX as [->| ->]; [congruence|]. split; [reflexivity|]. rewrite (PXW _ P), <- app_assoc. cbn [app].
        destruct K as [[K _]|(_ & _ & _ & _ & ->)]; [lia|]. do 2 f_equal.
        destruct Q as [[Q ->]|[Q ->]]; [now rewrite Q|]. destruct (Z.eqb_spec (B' x) (-1)); [lia|reflexivity].
      * left. exists y, w1, w2. split; [reflexivity|]. destruct (G _ _ P) as [P'|[? _]]; [|congruence]. split; [assumption|].
        split; [assumption|]. pose proof (inv_pos I _ L1). split; [lia|]. rewrite E1' in Q.
        destruct Q as [Q|[Q ->]]; [auto|right]. now rewrite HT.
    + intros [(y & w1 & w2 & -> & P & L & N & Q)|[-> ->]].
      * exists y, w1, w2. split; [reflexivity|]. split; [auto|]. destruct (LO y L) as [E1 E2].
        assert (y <> x) by auto. pose proof (inv_pos I _ L).
        split; [congruence|]. split; [lia|]. rewrite E2. destruct Q as [Q|[Q ->]]; [auto|right]. now rewrite HT.
      * destruct K as [[K _]|(_ & K1 & K2 & _ & ->)]; [lia|]. exists x, (w ++ [ch]), (if B' x =? -1 then [] else T' (- B' x - 2)).
        rewrite <- app_assoc. cbn [app]. split; [reflexivity|]. split; [assumption|]. rewrite CX. split; [lia|]. split; [lia|].
        destruct (Z.eqb_spec (B' x) (-1)); [auto|right].
        destruct (ascii_dec ch endChar) as [E|E]; [destruct (K1 E) as [|[? _]]|destruct (K2 E)]; try congruence; auto.
Qed.

(** *** A leaf becomes a hole, and a hole an inner node *)
Lemma leaf_childless B C T ps fr h x y : Inv B C T ps fr h -> B x < 0 -> 0 <= x -> C y <> x.
Proof. intros I H H0 E. destruct (i_par _ _ _ _ _ _ I y ltac:(lia)) as (_ & _ & Q & _). rewrite E in Q. lia. Qed.

Lemma make_hole B C T ps fr x w ch : Inv B C T ps fr (-1) -> C x <> -1 -> B x < -1 -> path B C x (w ++ [ch]) -> ch <> endChar ->
  Inv B C T ps fr x /\ fresh B C ps fr x (- B x - 2) /\
  forall s, has B C T (-1) s <-> has B C T x s \/ s = w ++ ch :: T (- B x - 2).
Proof.
  intros I L N P NE. pose proof (inv_pos I _ L) as PX. rt I. split; [|split].
  - constructor.
    + split; [assumption|]. split; [assumption|lia].
    + intros y Ly. destruct (i_par _ _ _ _ _ _ I y Ly) as (Q1 & Q2 & Q3 & Q4). split; [assumption|]. split; [|auto].
      apply (leaf_childless _ _ _ _ _ _ _ _ I); lia.
    + intros y c Ly Ny. apply (i_kind _ _ _ _ _ _ I y c Ly). pose proof (inv_pos I _ Ly). lia.
    + intros _. split; [assumption|]. intros c A X. apply (path_inv) in P as (_ & A' & X').
      assert (c = ch) as -> by (apply code_inj; auto; lia). assumption.
    + exact (i_reach _ _ _ _ _ _ I).
    + intros y z Ly Lz _ _. pose proof (inv_pos I _ Ly). pose proof (inv_pos I _ Lz). apply (i_slot _ _ _ _ _ _ I); auto; lia.
    + intros y Ly _. pose proof (inv_pos I _ Ly). apply (i_owned _ _ _ _ _ _ I); auto; lia.
    + exact (i_free _ _ _ _ _ _ I).
  - destruct (i_owned _ _ _ _ _ _ I x L ltac:(lia) N) as [O1 O2]. split; [lia|]. split; [assumption|].
    intros y Ly Ny Q E. apply Ny. pose proof (inv_pos I _ Ly). apply (i_slot _ _ _ _ _ _ I); auto; lia.
  - intros s. split.
    + intros (y & w1 & w2 & -> & Py & Ly & _ & K). destruct (Z.eq_dec y x) as [->|Ny].
      * right. rewrite <- (path_word I x _ P _ Py), <- app_assoc. cbn [app]. destruct K as [[? _]|[_ ->]]; [lia|reflexivity].
      * left. exists y, w1, w2. auto.
    + intros [(y & w1 & w2 & -> & Py & Ly & Ny & K)| ->].
      * exists y, w1, w2. pose proof (inv_pos I _ Ly). split; [reflexivity|]. split; [assumption|]. split; [assumption|]. split; [lia|assumption].
      * exists x, (w ++ [ch]), (T (- B x - 2)). rewrite <- app_assoc. split; [reflexivity|]. split; [assumption|]. split; [assumption|].
        split; [lia|auto].
Qed.

Lemma close_hole B C T ps fr h q B' : Inv B C T ps fr h -> h <> -1 -> 0 <= q -> (forall y, B' y = if y =? h then q else B y) ->
  Inv B' C T ps fr (-1) /\ (forall y w, path B C y w -> path B' C y w) /\ (forall s, has B' C T (-1) s <-> has B C T h s) /\
  (forall p, fresh B C ps fr h p -> fresh B' C ps fr (-1) p).
Proof.
  intros I Nh Nq HB. rt I. destruct (i_hole _ _ _ _ _ _ I Nh) as [Lh Kh]. pose proof (inv_pos I _ Lh) as PH.
  assert (BO : forall y, y <> h -> B' y = B y) by (intros y N; rewrite HB; destruct (Z.eqb_spec y h); congruence).
  assert (BH : B' h = q) by (rewrite HB, Z.eqb_refl; reflexivity).
  assert (PAR : forall y, C y <> -1 -> B' (C y) = B (C y)).
  { intros y L. apply BO. now destruct (i_par _ _ _ _ _ _ I y L) as (_ & ? & _). }
  assert (F : forall y w, path B C y w -> path B' C y w).
  { intros y w P. induction P as [|p v y c P IH E Ac Y]; [constructor|]. pose proof (path_nonneg I _ _ P).
    apply path_step with p; auto. subst p. rewrite PAR by lia. assumption. }
  assert (G : forall y w, path B' C y w -> path B C y w).
  { intros y w P. induction P as [|p v y c P IH E Ac Y]; [constructor|]. pose proof (path_nonneg I _ _ IH).
    apply path_step with p; auto. subst p. rewrite <- PAR by lia. assumption. }
  split; [|split; [assumption|split]].
  - constructor.
    + split; [assumption|]. rewrite BO by auto. lia.
    + intros y L. rewrite PAR by assumption. destruct (i_par _ _ _ _ _ _ I y L) as (Q1 & Q2 & Q3 & Q4). split; [assumption|]. split; [lia|auto].
    + intros y c L _ A Y. rewrite PAR in Y by assumption. destruct (Z.eq_dec y h) as [->|N].
      * rewrite BH. split; [|auto]. intros E. exfalso. now apply (Kh c).
      * rewrite BO by assumption. apply (i_kind _ _ _ _ _ _ I y c); auto.
    + lia.
    + intros y L. destruct (i_reach _ _ _ _ _ _ I y L) as [w P]. eauto.
    + intros y z Ly Lz _ _ N E.
      destruct (Z.eq_dec y h) as [->|N1]; [lia|]. destruct (Z.eq_dec z h) as [->|N2]; [lia|].
      rewrite !BO in * by assumption. apply (i_slot _ _ _ _ _ _ I); auto.
    + intros y L _ N. destruct (Z.eq_dec y h) as [->|N1]; [lia|]. rewrite BO in * by assumption. apply (i_owned _ _ _ _ _ _ I); auto.
    + exact (i_free _ _ _ _ _ _ I).
  - intros s. split; intros (y & w1 & w2 & -> & P & L & N & K); exists y, w1, w2; (split; [reflexivity|]); (split; [auto|]); (split; [assumption|]).
    + assert (y <> h) by (intros ->; rewrite BH in K; lia). split; [assumption|]. now rewrite BO in K.
    + split; [pose proof (inv_pos I _ L); lia|]. now rewrite BO.
  - intros p (P1 & P2 & P3). split; [assumption|]. split; [assumption|]. intros y L _ Q.
    destruct (Z.eq_dec y h) as [->|N1]; [lia|]. rewrite BO in * by assumption. apply P3; auto.
Qed.

(** *** Words determine leaves *)
Lemma prefix_path B C T ps fr h : Inv B C T ps fr h -> forall v y u, path B C y (u ++ v) -> v <> [] -> exists z, path B C z u /\ 0 <= B z.
Proof.
  intros I. induction v as [|c v IH] using rev_ind; intros y u P N; [congruence|].
  rewrite app_assoc in P. apply path_inv in P as (P & A & Y). pose proof (path_nonneg I _ _ P).
  destruct v as [|d v].
  - rewrite app_nil_r in P. exists (C y). split; [assumption|]. now destruct (no_child I (C y) y eq_refl ltac:(lia)) as (_ & ? & _).
  - apply (IH (C y)); [assumption|discriminate].
Qed.
Lemma leaf_unique B C T ps fr h x y w1 w2 v1 v2 : Inv B C T ps fr h ->
  path B C x w1 -> B x < 0 -> path B C y v1 -> B y < 0 -> w1 ++ w2 = v1 ++ v2 -> x = y.
Proof.
  intros I Px Bx Py By E.
  assert (H : forall a b u l, path B C a u -> B a < 0 -> path B C b (u ++ l) -> a = b).
  { intros a b u l Pa Ba Pb. destruct l as [|c l].
    - rewrite app_nil_r in Pb. eapply path_node; eassumption.
    - destruct (prefix_path _ _ _ _ _ _ I _ _ _ Pb) as (z & Pz & Bz); [discriminate|].
      assert (z = a) by (eapply path_node; eassumption). subst. lia. }
  apply app_eq_app in E as (l & [[-> _]|[-> _]]); [symmetry|]; eapply H; eassumption.
Qed.

(** *** Removing a leaf *)
Lemma remove_leaf B C T ps fr x w rest B' C' : Inv B C T ps fr (-1) -> C x <> -1 -> path B C x w ->
  (B x = -1 /\ rest = [] \/ B x < -1 /\ rest = T (- B x - 2)) ->
  (forall y, y <> x -> B' y = B y) -> (forall y, C' y = if y =? x then -1 else C y) ->
  Inv B' C' T ps fr (-1) /\ forall s, has B' C' T (-1) s <-> has B C T (-1) s /\ s <> w ++ rest.
Proof.
  intros I L P K HB HC. rt I. pose proof (inv_pos I _ L) as PX. assert (BX : B x < 0) by lia.
  assert (CO : forall y, y <> x -> C' y = C y) by (intros y N; rewrite HC; destruct (Z.eqb_spec y x); congruence).
  assert (CX : C' x = -1) by (rewrite HC, Z.eqb_refl; reflexivity).
  assert (LV : forall y, C' y <> -1 <-> y <> x /\ C y <> -1).
  { intros y. destruct (Z.eq_dec y x) as [->|N]; [rewrite CX|rewrite CO by assumption]; intuition. }
  assert (PAR : forall y, C y <> x) by (intros y; apply (leaf_childless _ _ _ _ _ _ _ _ I); lia).
  assert (F : forall y v, path B C y v -> y <> x -> path B' C' y v).
  { intros y v Q. induction Q as [|p v y c Q IH E Ac Y]; intros N; [constructor|]. assert (p <> x) by (subst p; apply PAR).
    apply path_step with p; auto; [rewrite CO by assumption; assumption|rewrite HB by assumption; assumption]. }
  assert (G : forall y v, path B' C' y v -> y <> x /\ path B C y v).
  { intros y v Q. induction Q as [|p v y c Q IH E Ac Y]; [split; [lia|constructor]|]. destruct IH as [N IH].
    pose proof (path_nonneg I _ _ IH). assert (y <> x) by (intros ->; lia). split; [assumption|].
    apply path_step with p; auto; [rewrite <- CO by assumption; assumption|rewrite <- HB by assumption; assumption]. }
  split.
  - constructor.
    + rewrite CO, HB by lia. auto.
    + intros y Ly. apply LV in Ly as [N Ly]. rewrite CO, HB by (assumption || apply PAR). apply (i_par _ _ _ _ _ _ I y Ly).
    + intros y c Ly _ A Y. apply LV in Ly as [N Ly]. rewrite CO in Y by assumption. rewrite HB in Y by apply PAR. rewrite HB by assumption.
      apply (i_kind _ _ _ _ _ _ I y c); auto. pose proof (inv_pos I _ Ly). lia.
    + lia.
    + intros y Ly. apply LV in Ly as [N Ly]. destruct (i_reach _ _ _ _ _ _ I y Ly) as [v Q]. eauto.
    + intros y z Ly Lz _ _. apply LV in Ly as [N Ly], Lz as [N' Lz]. rewrite !HB by assumption.
      pose proof (inv_pos I _ Ly). pose proof (inv_pos I _ Lz). apply (i_slot _ _ _ _ _ _ I); auto; lia.
    + intros y Ly _. apply LV in Ly as [N Ly]. rewrite HB by assumption. pose proof (inv_pos I _ Ly). apply (i_owned _ _ _ _ _ _ I); auto; lia.
    + exact (i_free _ _ _ _ _ _ I).
  - intros s. split.
    + intros (y & w1 & w2 & -> & Q & Ly & N & K'). apply LV in Ly as [Nx Ly]. rewrite HB in K' by assumption. apply G in Q as [_ Q]. split.
      * exists y, w1, w2. auto.
      * intros E. apply Nx. eapply leaf_unique; try eassumption. lia.
    + intros [(y & w1 & w2 & -> & Q & Ly & N & K') NE].
      assert (Nx : y <> x).
      { intros ->. apply NE. rewrite (path_word I x _ Q _ P). f_equal. destruct K as [[? ->]|[? ->]], K' as [[? ->]|[? ->]]; reflexivity || lia. }
      exists y, w1, w2. split; [reflexivity|]. split; [auto|]. split; [now apply LV|]. split; [assumption|]. now rewrite HB.
Qed.

(** *** Slots *)
Lemma alloc B C T ps fr h : Inv B C T ps fr h -> forall p ps' fr',
  (fr = [] /\ p = ps /\ ps' = ps + 1 /\ fr' = [] \/ fr = p :: fr' /\ ps' = ps) ->
  Inv B C T ps' fr' h /\ fresh B C ps' fr' h p /\ forall q, fresh B C ps fr h q -> q <> p /\ fresh B C ps' fr' h q.
Proof.
  intros I p ps' fr' K. destruct (i_free _ _ _ _ _ _ I) as (F1 & F2 & F3).
  assert (O : forall x, C x <> -1 -> x <> h -> B x < -1 -> - B x - 2 < ps' /\ ~ In (- B x - 2) fr' /\ - B x - 2 <> p).
  { intros x L N Q. destruct (i_owned _ _ _ _ _ _ I x L N Q) as [O1 O2]. destruct K as [(-> & -> & -> & ->)|(-> & ->)].
    - repeat split; auto; lia.
    - cbn [In] in O2. repeat split; intuition. }
  split; [|split].
  - destruct I. constructor; auto.
    + intros x L N Q. destruct (O x L N Q) as (? & ? & _). auto.
    + destruct K as [(-> & -> & -> & ->)|(-> & ->)].
      * split; [constructor|]. split; [intros q []|lia].
      * inversion F1; subst. split; [assumption|]. split; [|assumption]. intros q Hq. apply F2. now right.
  - split; [|split].
    + destruct K as [(-> & -> & -> & ->)|(-> & ->)]; [lia|]. apply F2. now left.
    + destruct K as [(-> & -> & -> & ->)|(-> & ->)]; [intros []|]. now inversion F1.
    + intros x L N Q. now apply O.
  - intros q (Q1 & Q2 & Q3). destruct K as [(-> & -> & -> & ->)|(-> & ->)].
    + split; [lia|]. split; [lia|]. split; [intros []|assumption].
    + cbn [In] in Q2. split; [intuition|]. split; [assumption|]. split; [intuition|assumption].
Qed.
Lemma release B C T ps fr h p : Inv B C T ps fr h -> fresh B C ps fr h p -> Inv B C T ps (fr ++ [p]) h.
Proof.
  intros I (P1 & P2 & P3). destruct (i_free _ _ _ _ _ _ I) as (F1 & F2 & F3). pose proof (i_owned _ _ _ _ _ _ I) as O.
  destruct I. constructor; auto.
  - intros x L N Q. destruct (O x L N Q) as [O1 O2]. split; [assumption|]. rewrite in_app_iff. cbn [In]. specialize (P3 x L N Q). intuition.
  - split; [|split; [|assumption]].
    + apply NoDup_rev in F1. rewrite <- (rev_involutive (fr ++ [p])). apply NoDup_rev. rewrite rev_app_distr. cbn [rev app].
      constructor; [now rewrite <- in_rev|assumption].
    + intros q. rewrite in_app_iff. cbn [In]. intros [Q|[<-|[]]]; auto.
Qed.

(** *** Moving the children of a node *)
Definition mem (l : list Z) (k : Z) : bool := existsb (Z.eqb k) l.
Lemma mem_spec l k : mem l k = true <-> In k l.
Proof. unfold mem. rewrite existsb_exists. split; [intros (x & H & E); apply Z.eqb_eq in E; now subst|intros H; exists k; split; [assumption|apply Z.eqb_refl]]. Qed.
Lemma mem_false l k : mem l k = false <-> ~ In k l.
Proof. rewrite <- mem_spec. destruct (mem l k); intuition congruence. Qed.
Lemma memP l k : {In k l /\ mem l k = true} + {~ In k l /\ mem l k = false}.
Proof. destruct (mem l k) eqn:E; [left|right]; split; auto; [now apply mem_spec|now apply mem_false]. Qed.

Lemma not_self B C T ps fr h x : Inv B C T ps fr h -> 0 <= x -> C x <> x.
Proof.
  intros I N E. destruct (i_reach _ _ _ _ _ _ I x ltac:(lia)) as [w P]. destruct (path_cases _ _ P) as [[-> _]|(v & c & -> & Q & _)].
  - rt I. lia.
  - rewrite E in Q. pose proof (path_word I x _ P _ Q) as F. apply (f_equal (@length _)) in F. rewrite app_length in F. cbn in F. lia.
Qed.

Definition ren (C : Z -> Z) (m tb nb y : Z) : Z := if C y =? m then y - tb + nb else y.

Lemma relocate B C T ps fr m nb l B' C' : Inv B C T ps fr (-1) -> m = 0 \/ C m <> -1 -> 0 <= B m -> 0 <= nb ->
  (forall k, In k l <-> 1 <= k <= 27 /\ C (B m + k) = m) -> (forall k, In k l -> C (nb + k) = -1) ->
  (forall y, B' y = if y =? m then nb else if mem l (y - B m) then -1 else if mem l (y - nb) then B (y - nb + B m) else B y) ->
  (forall y, C' y = if mem l (y - B m) then -1 else if mem l (y - nb) then m
                    else if mem l (C y - B m) then C y - B m + nb else C y) ->
  Inv B' C' T ps fr (-1) /\ (forall y w, path B C y w -> path B' C' (ren C m (B m) nb y) w) /\
  (forall s, has B' C' T (-1) s <-> has B C T (-1) s).
Proof.
  intros I Lm Bm Nb HL HF HB HC. rt I. set (tb := B m) in *.
  assert (Pm : 0 <= m). { destruct Lm as [->|L]; [lia|]. pose proof (inv_pos I _ L). lia. }
  assert (OLD : forall y, In (y - tb) l <-> C y = m).
  { intros y. rewrite HL. replace (tb + (y - tb)) with y by lia. split; [tauto|]. intros E. split; [|assumption].
    destruct (i_par _ _ _ _ _ _ I y ltac:(lia)) as (_ & _ & _ & ch & A & X). rewrite E in X. fold tb in X.
    pose proof (code_range ch A). lia. }
  assert (NEW : forall y, In (y - nb) l <-> C (y - nb + tb) = m).
  { intros y. rewrite <- OLD. now replace (y - nb + tb - tb) with (y - nb) by lia. }
  assert (NF : forall y, In (y - nb) l -> C y = -1).
  { intros y Q. apply HF in Q. now replace (nb + (y - nb)) with y in Q by lia. }
  assert (NP : forall y, In (y - nb) l -> 0 < y). { intros y Q. apply HL in Q. lia. }
  assert (SELF : C m <> m) by (apply (not_self _ _ _ _ _ _ _ I); assumption).
  assert (NM : ~ In (m - nb) l). { intros Q. pose proof (NF _ Q). pose proof (NP _ Q). destruct Lm; lia. }
  assert (RO : forall y, C y = m -> ren C m tb nb y = y - tb + nb).
  { intros y E. unfold ren. rewrite E, Z.eqb_refl. reflexivity. }
  assert (RK : forall y, C y <> m -> ren C m tb nb y = y).
  { intros y E. unfold ren. destruct (Z.eqb_spec (C y) m); congruence. }
  assert (RNEW : forall y, C y = m -> In (ren C m tb nb y - nb) l).
  { intros y E. rewrite RO by assumption. apply NEW. now replace (y - tb + nb - nb + tb) with y by lia. }
  assert (CR : forall y, C y = m -> C' (ren C m tb nb y) = m).
  { intros y E. pose proof (RNEW y E) as Q. rewrite HC.
    destruct (memP l (ren C m tb nb y - tb)) as [[Q1 ->]|[Q1 ->]].
    - apply OLD in Q1. pose proof (NF _ Q). lia.
    - now rewrite (proj2 (mem_spec _ _) Q). }
  assert (CK : forall y, C y <> -1 -> C y <> m -> C' y = ren C m tb nb (C y)).
  { intros y L E. rewrite HC. destruct (memP l (y - tb)) as [[Q1 ->]|[Q1 ->]]; [now apply OLD in Q1|].
    destruct (memP l (y - nb)) as [[Q2 ->]|[Q2 ->]]; [now apply NF in Q2|].
    destruct (memP l (C y - tb)) as [[Q3 ->]|[Q3 ->]].
    - apply OLD in Q3. now rewrite RO.
    - rewrite RK; [reflexivity|]. now rewrite <- OLD. }
  assert (BM : B' m = nb) by (rewrite HB, Z.eqb_refl; reflexivity).
  assert (BO : forall y, y = 0 \/ C y <> -1 -> y <> m -> B' (ren C m tb nb y) = B y).
  { intros y L N. destruct (Z.eq_dec (C y) m) as [E|E].
    - pose proof (RNEW y E) as Q. rewrite HB. destruct (Z.eqb_spec (ren C m tb nb y) m) as [Q0|_]; [now rewrite Q0 in Q|].
      destruct (memP l (ren C m tb nb y - tb)) as [[Q1 ->]|[Q1 ->]].
      + apply OLD in Q1. pose proof (NF _ Q). lia.
      + rewrite (proj2 (mem_spec _ _) Q), RO by assumption. f_equal. lia.
    - rewrite RK by assumption. rewrite HB. destruct (Z.eqb_spec y m); [congruence|].
      destruct (memP l (y - tb)) as [[Q1 ->]|[Q1 ->]]; [now apply OLD in Q1|].
      destruct (memP l (y - nb)) as [[Q2 ->]|[Q2 ->]]; [|reflexivity]. pose proof (NF _ Q2). pose proof (NP _ Q2). destruct L; lia. }
  assert (RM : ren C m tb nb m = m) by (apply RK; assumption).
  apply transport with (B := B) (C := C).
  - assumption.
  - apply RK. lia.
  - rewrite HC, RC. destruct (memP l (0 - tb)) as [[Q1 ->]|[Q1 ->]]; [reflexivity|].
    destruct (memP l (0 - nb)) as [[Q2 ->]|[Q2 ->]]; [apply NP in Q2; lia|].
    destruct (memP l (-1 - tb)) as [[Q3 ->]|[Q3 ->]]; [apply HL in Q3; lia|reflexivity].
  - intros y L. destruct (Z.eq_dec (C y) m) as [E|E].
    + pose proof (NP _ (RNEW y E)). lia.
    + rewrite RK by assumption. destruct L as [->|L]; [lia|]. pose proof (inv_pos I _ L). lia.
  - intros y L. destruct (Z.eq_dec (C y) m) as [E|E].
    + rewrite CR, E by assumption. auto.
    + rewrite (RK y) by assumption. auto.
  - intros y L. destruct (Z.eq_dec y m) as [->|N]; [right|left; auto]. rewrite RM, BM. auto.
  - intros y L. rewrite HC in L. destruct (memP l (y - tb)) as [[Q1 E]|[Q1 E]]; rewrite E in L; [congruence|].
    destruct (memP l (y - nb)) as [[Q2 E2]|[Q2 E2]]; rewrite E2 in L.
    + exists (y - nb + tb). apply NEW in Q2. split; [lia|]. rewrite RO by assumption. lia.
    + exists y. assert (C y <> -1).
      { destruct (memP l (C y - tb)) as [[Q3 E3]|[Q3 E3]]; rewrite E3 in L; [|assumption]. apply HL in Q3. lia. }
      split; [assumption|]. rewrite RK; [reflexivity|]. now rewrite <- OLD.
  - intros y z Ly Lz E. destruct (Z.eq_dec (C y) m) as [E1|E1], (Z.eq_dec (C z) m) as [E2|E2].
    + rewrite !RO in E by assumption. lia.
    + rewrite (RK z) in E by assumption. pose proof (RNEW y E1) as Q. rewrite E in Q. pose proof (NF _ Q). pose proof (NP _ Q). destruct Lz; lia.
    + rewrite (RK y) in E by assumption. pose proof (RNEW z E2) as Q. rewrite <- E in Q. pose proof (NF _ Q). pose proof (NP _ Q). destruct Ly; lia.
    + rewrite !RK in E by assumption. assumption.
  - intros x ch L A. destruct (Z.eq_dec (C x) m) as [E|E].
    + rewrite E, RM, BM, RO by assumption. fold tb. lia.
    + rewrite (RK x) by assumption. rewrite BO; [reflexivity| |assumption].
      now destruct (no_child I (C x) x eq_refl L) as (_ & _ & ?).
Qed.
End Alphabet.
