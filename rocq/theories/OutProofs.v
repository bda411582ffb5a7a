From Coq Require Import QArith.
From Verif Require Import Base DecModel DecProofs FracModel FracSpec FracProofs MatModel MatSpec MatProofs VecIOSpec OutSpec OutModel.
Local Open Scope Z_scope.

Lemma app_cons_assoc {A} (s : list A) x t : s ++ x :: t = (s ++ [x]) ++ t. Proof. now rewrite <- app_assoc. Qed.
(** a separator that occurs in neither prefix *)
Lemma split_unique (c : ascii) s : forall s' t t', ~ In c s -> ~ In c s' -> s ++ c :: t = s' ++ c :: t' -> s = s' /\ t = t'.
Proof.
  induction s as [|x s IH]; intros [|x' s'] t t' N N' E; cbn [app] in E.
  - now injection E.
  - injection E as -> _. exfalso. apply N'. now left.
  - injection E as <- _. exfalso. apply N. now left.
  - injection E as <- E. destruct (IH s' t t') as [-> ->]; try assumption; [intros I; apply N; now right|intros I; apply N'; now right|now split].
Qed.
Lemma joined_cons t u l : joined (t :: u :: l) = t ++ ","%char :: " "%char :: joined (u :: l). Proof. reflexivity. Qed.
Lemma joined_snoc l t : l <> [] -> joined (l ++ [t]) = joined l ++ str ", " ++ t.
Proof.
  induction l as [|a l IH]; [congruence|]. intros _. destruct l as [|b l]; [reflexivity|].
  change (joined ((a :: b :: l) ++ [t])) with (a ++ str ", " ++ joined ((b :: l) ++ [t])). rewrite IH by discriminate. rewrite joined_cons. rewrite <- !app_assoc. cbn [app]. now rewrite <- ?app_assoc.
Qed.
Lemma joined_inj l : forall l', l <> [] -> l' <> [] -> Forall (without ","%char) l -> Forall (without ","%char) l' -> joined l = joined l' -> l = l'.
Proof.
  induction l as [|a l IH]; intros [|a' l'] N N' F F' E; try congruence. inversion F as [|? ? Fa Fl]; inversion F' as [|? ? Fa' Fl']; subst.
  destruct l as [|b l], l' as [|b' l'].
  - cbn [joined] in E. now subst.
  - exfalso. rewrite joined_cons in E. cbn [joined] in E. apply Fa. rewrite E. apply in_or_app. right. now left.
  - exfalso. rewrite joined_cons in E. cbn [joined] in E. apply Fa'. rewrite <- E. apply in_or_app. right. now left.
  - rewrite !joined_cons in E. apply split_unique in E; [|assumption|assumption]. destruct E as [-> E]. injection E as E. f_equal. apply IH; try assumption; discriminate.
Qed.
Lemma joined_without c l : c <> ","%char -> c <> " "%char -> Forall (without c) l -> without c (joined l).
Proof.
  intros N1 N2 F. induction F as [|a l Fa F IH]; [intros []|]. destruct l as [|b l]; [exact Fa|]. rewrite joined_cons. intros I. apply in_app_or in I.
  destruct I as [I|[I|[I|I]]]; [now apply Fa|now apply N1|now apply N2|now apply IH].
Qed.
Lemma lines_inj l : forall l', Forall (without newline) l -> Forall (without newline) l' -> flat_map (fun s => s ++ [newline]) l = flat_map (fun s => s ++ [newline]) l' -> l = l'.
Proof.
  induction l as [|a l IH]; intros [|a' l'] F F' E; cbn [flat_map] in E; try reflexivity.
  - exfalso. destruct a'; discriminate E.
  - exfalso. destruct a; discriminate E.
  - inversion F; inversion F'; subst. rewrite <- !app_assoc in E. cbn [app] in E. apply split_unique in E; try assumption. destruct E as [-> E]. f_equal. now apply IH.
Qed.
Lemma map_inj {A B} (f : A -> B) : (forall x y, f x = f y -> x = y) -> forall l l', map f l = map f l' -> l = l'.
Proof. intros H. induction l as [|x l IH]; intros [|y l'] E; cbn [map] in E; try discriminate; [reflexivity|]. injection E as E1 E2. f_equal; auto. Qed.

Lemma firstn_more {A} (l : list A) : forall n z, nth_error l n = Some z -> firstn (S n) l = firstn n l ++ [z].
Proof.
  induction l as [|a l IH]; intros [|n] z H; cbn in H; try discriminate; [now injection H as ->|].
  change (firstn (S (S n)) (a :: l)) with (a :: firstn (S n) l). change (firstn (S n) (a :: l)) with (a :: firstn n l). now rewrite (IH n z H).
Qed.
(** decimal numerals *)
Lemma numeral_chars s z : numeral s z -> forall c, In c s -> is_digit c = true \/ c = "-"%char.
Proof.
  intros N c I. assert (G : forall t, canon_digits t -> In c t -> is_digit c = true). { intros t (_ & D & _) J. rewrite forallb_forall in D. now apply D. }
  destruct N as [[D _]|(t & -> & D & _)]; [left; now apply (G s)|]. destruct I as [<-|I]; [now right|left; now apply (G t)].
Qed.
Lemma numeral_value s a b : numeral s a -> numeral s b -> a = b.
Proof.
  intros [[Da A]|(t & E & Dt & Nt & A)] [[Db B]|(t' & E' & Dt' & Nt' & B)].
  - congruence.
  - exfalso. subst s. destruct Da as (_ & D & _). discriminate D.
  - exfalso. subst s. destruct Db as (_ & D & _). discriminate D.
  - rewrite E in E'. injection E' as ->. congruence.
Qed.
Lemma to_string_inj a b : to_string_Z a = to_string_Z b -> a = b.
Proof. intros E. apply (numeral_value (to_string_Z a)); [apply to_string_Z_numeral|rewrite E; apply to_string_Z_numeral]. Qed.
Lemma to_string_without c z : is_digit c = false -> c <> "-"%char -> without c (to_string_Z z).
Proof. intros D N I. destruct (numeral_chars _ _ (to_string_Z_numeral z) c I) as [H|H]; congruence. Qed.

(** Fraction *)
Lemma fraction_text f : exists s t, print_fraction f = s ++ "/"%char :: t /\ numeral s (num f) /\ numeral t (den f).
Proof. exists (to_string_Z (num f)), (to_string_Z (den f)). split; [reflexivity|]. split; apply to_string_Z_numeral. Qed.
Lemma fraction_inj f g : print_fraction f = print_fraction g -> f = g.
Proof.
  intros E. unfold print_fraction in E. change (str "/") with ["/"%char] in E. cbn [app] in E. apply split_unique in E; try (now apply to_string_without).
  destruct E as [E1 E2]. destruct f, g. cbn in *. f_equal; now apply to_string_inj.
Qed.

(** Matrix and Point *)
Section Rows.
Context {A : Type} (fmt : A -> bytes).
Lemma row_loop (get : Z -> outcome A) (r : list A) p : (forall j, 0 <= j < Z.of_nat (length r) -> exists x, nth_error r (Z.to_nat j) = Some x /\ get j = Ok x) -> r <> [] ->
  (x <- get 0 ;; for_loop (length r - 1) 1 (fun j s => y <- get j ;; Ok (s ++ str ", " ++ fmt y)) (p ++ fmt x)) = Ok (p ++ joined (map fmt r)).
Proof.
  intros G N. destruct r as [|x r]; [congruence|]. destruct (G 0) as (x0 & E0 & ->); [cbn [length]; lia|]. cbn in E0. injection E0 as <-. cbn [bind length]. replace (S (length r) - 1)%nat with (length r) by lia.
  destruct (for_loop_inv (fun k s => s = p ++ joined (map fmt (firstn (Z.to_nat k) (x :: r)))) (fun j s => y <- get j ;; Ok (s ++ str ", " ++ fmt y)) (length r) 1 (p ++ fmt x)) as (s & Es & Is).
  - reflexivity.
  - intros k s K ->. destruct (G k) as (y & Ey & ->); [cbn [length]; lia|]. cbn [bind]. eexists. split; [reflexivity|].
    replace (Z.to_nat (k + 1)) with (S (Z.to_nat k)) by lia.
    rewrite (firstn_more _ _ _ Ey), map_app. cbn [map]. rewrite joined_snoc; [now rewrite <- app_assoc|].
    intros Z0. apply map_eq_nil in Z0. destruct (Z.to_nat k) eqn:Ek; [lia|discriminate Z0].
  - rewrite Es, Is. rewrite firstn_all2 by (cbn [length]; lia). reflexivity.
Qed.
Lemma matrix_text (m : mat A) n c : shape m n c -> 0 < c \/ n = 0 -> matrix_toString fmt m = Ok (flat_map (fun r => joined (map fmt r) ++ [newline]) (cells m)).
Proof.
  intros (L & Rn & Cn & Pn & Pc & Ln & F) H. unfold matrix_toString. rewrite Rn.
  destruct (for_loop_inv (fun k s => s = flat_map (fun r => joined (map fmt r) ++ [newline]) (firstn (Z.to_nat k) (cells m))) (matrix_row fmt m) (Z.to_nat n) 0 []) as (s & Es & Is).
  - reflexivity.
  - intros k s K ->. assert (Kn : (Z.to_nat k < length (cells m))%nat) by lia.
    destruct (nth_error (cells m) (Z.to_nat k)) as [r|] eqn:Er; [|apply nth_error_None in Er; lia].
    assert (Lr : length r = Z.to_nat c) by (rewrite Forall_forall in F; apply F; eapply nth_error_In; exact Er).
    eexists. split.
    + unfold matrix_row. rewrite Cn. replace (Z.to_nat (c - 1)) with (length r - 1)%nat by lia.
      pose proof (row_loop (mget m k) r (flat_map (fun r => joined (map fmt r) ++ [newline]) (firstn (Z.to_nat k) (cells m)))) as RL.
      destruct (mget m k 0) as [x| | |] eqn:E0.
      * cbn [bind] in *. rewrite RL; [cbn [bind]; reflexivity| |].
        -- intros j J. destruct (nth_error r (Z.to_nat j)) as [y|] eqn:Ey; [|apply nth_error_None in Ey; lia]. exists y. split; [reflexivity|].
           unfold mget. rewrite L, (aget_nth_error _ _ r) by (assumption || lia). cbn [bind]. apply aget_nth_error; [lia|assumption].
        -- intros ->. cbn in Lr. lia.
      * exfalso. unfold mget in E0. rewrite L, (aget_nth_error _ _ r) in E0 by (assumption || lia). cbn [bind] in E0. destruct r as [|x r]; [cbn in Lr; lia|]. discriminate E0.
      * exfalso. unfold mget in E0. rewrite L, (aget_nth_error _ _ r) in E0 by (assumption || lia). cbn [bind] in E0. destruct r as [|x r]; [cbn in Lr; lia|]. discriminate E0.
      * exfalso. unfold mget in E0. rewrite L, (aget_nth_error _ _ r) in E0 by (assumption || lia). cbn [bind] in E0. destruct r as [|x r]; [cbn in Lr; lia|]. discriminate E0.
    + replace (Z.to_nat (k + 1)) with (S (Z.to_nat k)) by lia.
      rewrite (firstn_more _ _ _ Er), flat_map_app. cbn [flat_map]. now rewrite app_nil_r, <- app_assoc.
  - transitivity (@Ok bytes s); [exact Es|]. rewrite Is. rewrite firstn_all2 by lia. reflexivity.
Qed.
Lemma matrix_no_columns (m : mat A) n : shape m n 0 -> 0 < n -> matrix_toString fmt m = UB.
Proof.
  intros (L & Rn & Cn & Pn & Pc & Ln & F) H. unfold matrix_toString. rewrite Rn. destruct (Z.to_nat n) as [|k] eqn:E; [lia|]. cbn [for_loop]. unfold matrix_row at 1. unfold mget. rewrite L.
  destruct (cells m) as [|r rs]; [cbn in Ln; lia|]. inversion F as [|? ? Fr _]; subst. destruct r; [reflexivity|discriminate Fr].
Qed.
Lemma rows_inj l : forall l', (forall x y, fmt x = fmt y -> x = y) -> (forall x, without ","%char (fmt x) /\ without newline (fmt x)) ->
  Forall (fun r => r <> []) l -> Forall (fun r => r <> []) l' ->
  flat_map (fun r => joined (map fmt r) ++ [newline]) l = flat_map (fun r => joined (map fmt r) ++ [newline]) l' -> l = l'.
Proof.
  intros l' I C N N' E.
  assert (W : forall l0 : list (list A), flat_map (fun r => joined (map fmt r) ++ [newline]) l0 = flat_map (fun s => s ++ [newline]) (map (fun r => joined (map fmt r)) l0)).
  { clear. induction l0 as [|a l0 IH]; [reflexivity|]. cbn [flat_map map]. now rewrite IH. }
  assert (Fc : forall r, Forall (without ","%char) (map fmt r)) by (intros r; apply Forall_map, Forall_forall; intros x _; apply C).
  assert (Fn : forall l0, Forall (without newline) (map (fun r => joined (map fmt r)) l0)).
  { intros l0. apply Forall_map, Forall_forall. intros r _. apply joined_without; [discriminate|discriminate|]. apply Forall_map, Forall_forall. intros x _. apply C. }
  rewrite !W in E. apply lines_inj in E; [|apply Fn|apply Fn]. clear W Fn. revert l' N' E. induction N as [|r l Hr N IH]; intros [|r' l'] N' E; cbn [map] in E; try discriminate; [reflexivity|].
  inversion N' as [|? ? Hr' N'']; subst. injection E as E1 E2. f_equal; [|now apply IH].
  apply (map_inj fmt I). apply joined_inj; try apply Fc; [| |exact E1]; intros Z0; apply map_eq_nil in Z0; contradiction.
Qed.
Lemma point_text p : p <> [] -> print_point fmt p = Ok (str "(" ++ joined (map fmt p) ++ str ")").
Proof.
  intros N. unfold print_point. pose proof (row_loop (aget p) p (str "(")) as RL. destruct (aget p 0) as [x| | |] eqn:E0.
  - cbn [bind] in *. rewrite RL; [|intros j J; destruct (nth_error p (Z.to_nat j)) as [y|] eqn:Ey; [|apply nth_error_None in Ey; lia]; exists y; split; [reflexivity|apply aget_nth_error; [lia|assumption]]|exact N].
    cbn [bind]. now rewrite <- app_assoc.
  - destruct p; [congruence|discriminate E0].
  - destruct p; [congruence|discriminate E0].
  - destruct p; [congruence|discriminate E0].
Qed.
End Rows.
