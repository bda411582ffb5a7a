(** Memory level Matrix: histories of Matrix variables. *)
From Coq Require Import Permutation.
From Verif Require Import Base MatModel MatSpec MatProofs MatReduceProofs MatHeapModel MatHeapSpec MatHeapProofs MatHeapOpProofs MatHeapArithProofs MatAnySpec MatAnyProofs.
Local Open Scope Z_scope.

Lemma upd_upd {B} (l : list B) i x y : upd (upd l i x) i y = upd l i y.
Proof. revert i; induction l as [|z l IH]; intros [|i]; cbn; try reflexivity. now rewrite IH. Qed.
Lemma upd_same {B} (l : list B) i x : nth_error l i = Some x -> upd l i x = l.
Proof. revert i; induction l as [|z l IH]; intros [|i] H; cbn in *; try discriminate; [congruence|]. now rewrite IH. Qed.
Lemma concat_upd {B} (Fs : list (list B)) i F G : nth_error Fs i = Some F -> Permutation (concat (upd Fs i G)) (G ++ concat (upd Fs i [])).
Proof.
  revert i; induction Fs as [|H Fs IH]; intros [|i] E; cbn in *; try discriminate; [reflexivity|].
  rewrite (IH i E). rewrite !app_assoc. apply Permutation_app_tail. apply Permutation_app_comm.
Qed.
Lemma concat_take {B} (Fs : list (list B)) i F : nth_error Fs i = Some F -> Permutation (concat Fs) (F ++ concat (upd Fs i [])).
Proof. intros E. rewrite <- (upd_same Fs i F E) at 1. now apply (concat_upd Fs i F F). Qed.
Lemma in_concat_nth {B} (Fs : list (list B)) i F a : nth_error Fs i = Some F -> In a F -> In a (concat Fs).
Proof. intros E H. apply in_concat. exists F. split; [eapply nth_error_In; exact E|assumption]. Qed.

Lemma nodup_app_r {B} (l k : list B) : NoDup (l ++ k) -> NoDup k.
Proof. induction l as [|x l IH]; cbn; [auto|]. intros H. inversion H; auto. Qed.
Lemma for_loop_keeps {S} (P : S -> Prop) b n : (forall i s s', P s -> b i s = Ok s' -> P s') -> forall i s s', P s -> for_loop n i b s = Ok s' -> P s'.
Proof.
  intros H. induction n as [|n IH]; intros i s s' Hs E; cbn [for_loop] in E; [congruence|].
  destruct (b i s) eqn:Eb; cbn [bind] in E; try discriminate. eapply IH; [|exact E]. eapply H; eassumption.
Qed.

Section Main.
Context {A : Type} (o : ops A) (f : Z -> A).
Notation heap := (heap (A := A)).
Notation world := (world (A := A)).
Notation env := (env (A := A)).

Definition slot (h : heap) (v : option (option obj)) (c : option (option (mat A))) (F : option (list nat)) : Prop :=
  match v, c, F with
  | None, None, None => True
  | Some None, Some None, Some F => F = []
  | Some (Some x), Some (Some m), Some F => repr 0 h x m F /\ shape m (row m) (col m)
  | _, _, _ => False
  end.
Definition owns (w : world) (e : env) (Fs : list (list nat)) (L : list nat) : Prop :=
  (forall k, slot (mem w) (nth_error (vars w) k) (nth_error e k) (nth_error Fs k)) /\
  NoDup (concat Fs ++ L) /\ (forall a, alive (mem w) a <-> In a (concat Fs ++ L)).
Definition Inv (w : world) (e : env) (L : list nat) : Prop := exists Fs, owns w e Fs L.

Lemma slot_agree h h' v c F : slot h v c F -> (forall G a, F = Some G -> In a G -> nth_error h' a = nth_error h a) -> slot h' v c F.
Proof.
  destruct v as [[x|]|], c as [[m|]|], F as [F|]; cbn; try tauto. intros (R & S) H. split; [|assumption].
  apply (repr_agree 0 h h' x m F R). intros a Ha. now apply (H F).
Qed.
Lemma nth_upd {B} (l : list B) i x y k : nth_error l i = Some y -> nth_error (upd l i x) k = if Nat.eq_dec i k then Some x else nth_error l k.
Proof.
  intros E. destruct (Nat.eq_dec i k) as [<-|N]; [apply nth_error_upd_eq; apply nth_error_Some; congruence|now apply nth_error_upd_neq].
Qed.
Lemma owns_var w e Fs L i : owns w e Fs L ->
  (exists x m F, var (vars w) i = Ok x /\ var e i = Ok m /\ nth_error (vars w) i = Some (Some x) /\ nth_error e i = Some (Some m) /\
     nth_error Fs i = Some F /\ repr 0 (mem w) x m F /\ shape m (row m) (col m)) \/
  (var (vars w) i = UB /\ var e i = UB).
Proof.
  intros (H & _). specialize (H i). unfold var. destruct (nth_error (vars w) i) as [[x|]|], (nth_error e i) as [[m|]|], (nth_error Fs i) as [F|]; cbn in H; try tauto.
  left. exists x, m, F. destruct H as (H1 & H2). repeat (split; [reflexivity || assumption|]). assumption.
Qed.
Lemma owns_disj w e Fs L i j F G a : owns w e Fs L -> i <> j -> nth_error Fs i = Some F -> nth_error Fs j = Some G -> In a F -> In a G -> False.
Proof.
  intros (_ & ND & _) N Ei Ej Ha Hb.
  apply (Permutation_NoDup (Permutation_app_tail L (concat_take Fs i F Ei))) in ND.
  rewrite <- app_assoc in ND. apply in_split in Ha. destruct Ha as (F1 & F2 & ->). rewrite <- app_assoc in ND. cbn [app] in ND.
  apply NoDup_remove_2 in ND. apply ND. rewrite !in_app_iff. right. right. left.
  apply (in_concat_nth _ j G); [|assumption]. now rewrite nth_error_upd_neq.
Qed.
Lemma owns_lt w e Fs L a : owns w e Fs L -> In a (concat Fs ++ L) -> (a < length (mem w))%nat.
Proof. intros (_ & _ & Al) H. apply alive_lt. now apply Al. Qed.

(** an operation that changes one variable in place *)
Lemma inv_inplace w e Fs L i x m F h' m' : owns w e Fs L -> nth_error (vars w) i = Some (Some x) -> nth_error e i = Some (Some m) ->
  nth_error Fs i = Some F -> frame F (mem w) h' -> repr 0 h' x m' F -> shape m' (row m') (col m') ->
  Inv (World (vars w) h') (upd e i (Some m')) L.
Proof.
  intros O Ev Ee EF (Fl & Fn & Fa) R S. exists Fs. pose proof O as (Sl & ND & Al). split; [|split; [assumption|]]; cbn [vars mem].
  - intros k. rewrite (nth_upd e i _ _ k Ee). destruct (Nat.eq_dec i k) as [<-|N].
    + rewrite Ev, EF. cbn. auto.
    + eapply slot_agree; [apply Sl|]. intros G a EG Ha. apply Fn. intros Hf. eapply (owns_disj w e Fs L i k); eassumption.
  - intros a. rewrite Fa. apply Al.
Qed.
(** an operation that defines a variable *)
Lemma nth_snoc {B} (l : list B) x k : nth_error (l ++ [x]) k = if Nat.eq_dec k (length l) then Some x else nth_error l k.
Proof.
  destruct (Nat.eq_dec k (length l)) as [->|N].
  - rewrite nth_error_app2, Nat.sub_diag by lia. reflexivity.
  - destruct (Nat.lt_ge_cases k (length l)); [now apply nth_error_app1|].
    rewrite (proj2 (nth_error_None _ _)) by (rewrite app_length; cbn; lia). symmetry. apply nth_error_None. lia.
Qed.
Lemma owns_lengths w e Fs L : owns w e Fs L -> length e = length (vars w) /\ length Fs = length (vars w).
Proof.
  intros (H & _). split; apply Nat.le_antisymm; (match goal with |- (?a <= ?b)%nat => destruct (Nat.le_gt_cases a b) as [|G]; [assumption|exfalso] end).
  - specialize (H (length (vars w))). rewrite (proj2 (nth_error_None (vars w) _)) in H by lia.
    destruct (nth_error e (length (vars w))) eqn:E; [cbn in H; destruct o0; assumption|]. apply nth_error_None in E. lia.
  - specialize (H (length e)). rewrite (proj2 (nth_error_None e _)) in H by lia.
    destruct (nth_error (vars w) (length e)) as [[x|]|] eqn:E; cbn in H; try tauto. apply nth_error_None in E. lia.
  - specialize (H (length (vars w))). rewrite (proj2 (nth_error_None (vars w) _)) in H by lia.
    destruct (nth_error Fs (length (vars w))) eqn:E; [|apply nth_error_None in E; lia]. cbn in H. destruct (nth_error e (length (vars w))) as [[?|]|]; assumption.
  - specialize (H (length Fs)). rewrite (proj2 (nth_error_None Fs _)) in H by lia.
    destruct (nth_error (vars w) (length Fs)) as [[x|]|] eqn:E; cbn in H; [| |apply nth_error_None in E; lia]; destruct (nth_error e (length Fs)) as [[?|]|]; assumption.
Qed.
Lemma grows_owns w e Fs L h' n : owns w e Fs L -> grows (mem w) h' n ->
  NoDup ((concat Fs ++ L) ++ seq (length (mem w)) n) /\ forall a, alive h' a <-> In a ((concat Fs ++ L) ++ seq (length (mem w)) n).
Proof.
  intros O (Gl & Gs & Ga). pose proof O as (_ & ND & Al). split.
  - assert (K : forall l : list nat, NoDup l -> (forall a, In a l -> (a < length (mem w))%nat) -> NoDup (l ++ seq (length (mem w)) n)).
    { induction l as [|a l IH]; intros N H; cbn; [apply seq_NoDup|]. inversion N; subst. constructor.
      - rewrite in_app_iff, in_seq. intros [X|X]; [auto|]. specialize (H a (or_introl eq_refl)). lia.
      - apply IH; [assumption|]. intros b Hb. apply H. now right. }
    apply K; [assumption|]. intros a. apply (owns_lt w e Fs L a O).
  - intros a. rewrite in_app_iff, in_seq. destruct (Nat.lt_ge_cases a (length (mem w))) as [Hl|Hl].
    + rewrite <- Al. unfold alive. rewrite Gs by assumption. split; [auto|]. intros [H|H]; [assumption|lia].
    + split.
      * intros H. apply alive_lt in H. right. lia.
      * intros [H|H]; [|apply Ga; lia]. apply (owns_lt w e Fs L a O) in H. lia.
Qed.
Lemma inv_new w e Fs L h' n x m F N : owns w e Fs L -> grows (mem w) h' n -> repr 0 h' x m F -> shape m (row m) (col m) ->
  Permutation (seq (length (mem w)) n) (F ++ N) -> Inv (World (vars w ++ [Some x]) h') (e ++ [Some m]) (N ++ L).
Proof.
  intros O G R S P. destruct (owns_lengths _ _ _ _ O) as (Le & LF). destruct (grows_owns _ _ _ _ _ _ O G) as (ND & Al).
  pose proof O as (Sl & _). exists (Fs ++ [F]). unfold owns. cbn [vars mem].
  assert (PP : Permutation ((concat Fs ++ L) ++ seq (length (mem w)) n) (concat (Fs ++ [F]) ++ N ++ L)).
  { rewrite P. rewrite concat_app. cbn [concat]. rewrite app_nil_r.
    rewrite <- !app_assoc. apply Permutation_app_head. rewrite (Permutation_app_comm L). rewrite <- !app_assoc. reflexivity. }
  split; [|split].
  - intros k. rewrite !nth_snoc, Le, LF. destruct (Nat.eq_dec k (length (vars w))) as [->|Nk]; [cbn; auto|].
    eapply slot_agree; [apply Sl|]. intros G' a EG Ha. apply G. apply (owns_lt w e Fs L a O). apply in_app_iff. left. eapply in_concat_nth; eassumption.
  - eapply Permutation_NoDup; eassumption.
  - intros a. rewrite Al. split; apply Permutation_in; [exact PP|apply Permutation_sym; exact PP].
Qed.
(** the end of a variable *)
Lemma inv_end w e Fs L i x m F h' : owns w e Fs L -> nth_error (vars w) i = Some (Some x) -> nth_error e i = Some (Some m) ->
  nth_error Fs i = Some F -> length h' = length (mem w) ->
  (forall b, ~ In b F -> nth_error h' b = nth_error (mem w) b) -> (forall b, In b F -> nth_error h' b = Some None) ->
  owns (World (upd (vars w) i None) h') (upd e i None) (upd Fs i []) L.
Proof.
  intros O Ev Ee EF Hl Hn Hf. pose proof O as (Sl & ND & Al). unfold owns. cbn [vars mem].
  assert (PP : Permutation (concat Fs ++ L) (F ++ (concat (upd Fs i []) ++ L))).
  { rewrite (concat_take Fs i F EF) at 1. rewrite <- app_assoc. reflexivity. }
  split; [|split].
  - intros k. rewrite (nth_upd _ i None _ k Ev), (nth_upd _ i None _ k Ee), (nth_upd _ i [] _ k EF).
    destruct (Nat.eq_dec i k) as [<-|N]; [reflexivity|].
    eapply slot_agree; [apply Sl|]. intros G a EG Ha. apply Hn. intros HF. eapply (owns_disj w e Fs L i k); eassumption.
  - apply (Permutation_NoDup PP) in ND. eapply nodup_app_r. exact ND.
  - intros a. split.
    + intros Ha. assert (~ In a F) by (intros HF; destruct Ha as (b & Eb); rewrite Hf in Eb by assumption; discriminate).
      destruct Ha as (b & Eb). rewrite Hn in Eb by assumption. assert (Hi : In a (concat Fs ++ L)) by (apply Al; eexists; exact Eb).
      apply (Permutation_in _ PP) in Hi. apply in_app_iff in Hi. tauto.
    + intros Hi. assert (NF : ~ In a F).
      { intros HF. apply (Permutation_NoDup PP) in ND. apply in_split in HF. destruct HF as (F1 & F2 & ->).
        rewrite <- app_assoc in ND. cbn [app] in ND. apply NoDup_remove_2 in ND. apply ND. rewrite !in_app_iff. rewrite in_app_iff in Hi. tauto. }
      assert (Ha : alive (mem w) a).
      { apply Al. apply (Permutation_in _ (Permutation_sym PP)). apply in_app_iff. now right. }
      destruct Ha as (b & Eb). exists b. rewrite Hn by assumption. assumption.
Qed.
(** a variable without contents gets some *)
Lemma inv_refill w e Fs L i x m h' n : owns w e Fs L -> nth_error (vars w) i = Some None -> nth_error e i = Some None -> nth_error Fs i = Some [] ->
  grows (mem w) h' n -> repr 0 h' x m (seq (length (mem w)) n) -> shape m (row m) (col m) ->
  Inv (World (upd (vars w) i (Some x)) h') (upd e i (Some m)) L.
Proof.
  intros O Ev Ee EF G R S. destruct (grows_owns _ _ _ _ _ _ O G) as (ND & Al). pose proof O as (Sl & _).
  exists (upd Fs i (seq (length (mem w)) n)). unfold owns. cbn [vars mem].
  assert (PP : Permutation ((concat Fs ++ L) ++ seq (length (mem w)) n) (concat (upd Fs i (seq (length (mem w)) n)) ++ L)).
  { rewrite (concat_upd Fs i [] _ EF). rewrite <- (upd_same Fs i [] EF) at 1. rewrite Permutation_app_comm. rewrite app_assoc. reflexivity. }
  split; [|split].
  - intros k. rewrite (nth_upd _ i (Some x) _ k Ev), (nth_upd _ i (Some m) _ k Ee), (nth_upd _ i _ _ k EF).
    destruct (Nat.eq_dec i k) as [<-|N]; [cbn; auto|].
    eapply slot_agree; [apply Sl|]. intros G' a EG Ha. apply G. apply (owns_lt w e Fs L a O). apply in_app_iff. left. eapply in_concat_nth; eassumption.
  - eapply Permutation_NoDup; eassumption.
  - intros a. rewrite Al. split; apply Permutation_in; [exact PP|apply Permutation_sym; exact PP].
Qed.

(** one operation *)
Definition Rstep (e : env) (L : list nat) (p : mop (A := A)) (a : world * mret (A := A)) (b : env * mret (A := A)) : Prop :=
  snd a = snd b /\ exists L', Inv (fst a) (fst b) L' /\ Z.of_nat (length L') = Z.of_nat (length L) + lost e p.
Lemma shape_self (m : mat A) n c : shape m n c -> shape m (row m) (col m).
Proof. intros H. destruct (shape_nonneg _ _ _ H) as (_ & _ & E1 & E2). now rewrite E1, E2. Qed.
Lemma aset_inv {B} (l : list B) i x l' : aset l i x = Ok l' -> 0 <= i < Z.of_nat (length l).
Proof. unfold aset. destruct (Z.ltb_spec i 0), (Z.leb_spec (Z.of_nat (length l)) i); cbn; intros; try discriminate; lia. Qed.
Lemma shape_mset (m : mat A) n c i j v m' : shape m n c -> mset m i j v = Ok m' -> shape m' n c.
Proof.
  intros Sm E. pose proof E as E0. destruct (shape_nonneg _ _ _ Sm) as (H0 & H1 & _). pose proof Sm as (L & _ & _ & _ & _ & HL & HF).
  unfold mset in E. rewrite L in E. destruct (aget (cells m) i) as [rw| | |] eqn:Er; cbn [bind] in E; try discriminate. apply aget_inv in Er.
  destruct (aset rw j v) eqn:Ej; cbn [bind] in E; try discriminate. apply aset_inv in Ej.
  rewrite Forall_forall in HF. specialize (HF rw (nth_error_In _ _ (proj2 Er))).
  destruct (mset_shape o m n c i j v Sm ltac:(lia) ltac:(lia)) as (m1 & E1 & S1 & _). congruence.
Qed.
Lemma shape_swap (m : mat A) n c p q m' : shape m n c -> swap_rows m p q = Ok m' -> shape m' n c.
Proof.
  intros Sm E. pose proof E as E0. destruct (shape_nonneg _ _ _ Sm) as (H0 & H1 & _). pose proof Sm as (L & _ & _ & _ & _ & HL & HF).
  unfold swap_rows in E. rewrite L in E.
  destruct (aget (cells m) p) as [x| | |] eqn:Ep; cbn [bind] in E; try discriminate.
  destruct (aget (cells m) q) as [y| | |] eqn:Eq; cbn [bind] in E; try discriminate.
  apply aget_inv in Ep. apply aget_inv in Eq.
  destruct (swap_rows_spec o n c m p q Sm ltac:(lia) ltac:(lia)) as (m1 & E1 & S1 & _). congruence.
Qed.
Ltac inv_bind E := match type of E with bind ?a _ = Ok _ => let x := fresh "x" in let Ex := fresh "E" x in destruct a as [x| | |] eqn:Ex; cbn [bind] in E; try discriminate end.
Lemma shape_find_pivot n c i : forall fuel (m : mat A) r nz nz' r' m', shape m n c -> find_pivot o fuel m i r nz = Ok (nz', r', m') -> shape m' n c.
Proof.
  induction fuel as [|fuel IH]; intros m r nz nz' r' m' Sm E; cbn [find_pivot] in E; [discriminate|].
  destruct (r <? col m); [|congruence]. inv_bind E. destruct (x <? 0); [eapply IH; eassumption|]. inv_bind E. 
  assert (x0 = m') by congruence. subst. eapply shape_swap; eassumption.
Qed.
Lemma shape_normalise n c (m : mat A) i r m' : shape m n c -> normalise o m i r = Ok m' -> shape m' n c.
Proof.
  intros Sm E. unfold normalise in E. inv_bind E. eapply shape_mset; [|exact E].
  refine (for_loop_keeps (fun m => shape m n c) _ _ _ _ _ _ Sm Ex).
  intros t s s' Ss Es. cbv zeta in Es. inv_bind Es. inv_bind Es. eapply shape_mset; eassumption.
Qed.
Lemma shape_eliminate n c (m : mat A) i r m' : shape m n c -> eliminate o m i r = Ok m' -> shape m' n c.
Proof.
  intros Sm E. unfold eliminate in E. refine (for_loop_keeps (fun m => shape m n c) _ _ _ _ _ _ Sm E). clear m m' Sm E.
  intros j m m' Sm E. unfold eliminate_row in E. inv_bind E. eapply shape_mset; [|exact E].
  refine (for_loop_keeps (fun m => shape m n c) _ _ _ _ _ _ Sm Ex).
  intros t s s' Ss Es. cbv zeta in Es. inv_bind Es. inv_bind Es. inv_bind Es. eapply shape_mset; eassumption.
Qed.
Lemma shape_reduce_loop n c : forall k i r (m m' : mat A), shape m n c -> reduce_loop o k i r m = Ok m' -> shape m' n c.
Proof.
  induction k as [|k IH]; intros i r m m' Sm E; cbn [reduce_loop] in E; [congruence|]. inv_bind E. destruct x as [[nz r1] m1].
  apply (shape_find_pivot n c) in Ex; [|assumption]. destruct nz as [j|]; [|discriminate]. destruct (j <? 0); [congruence|].
  inv_bind E. apply (shape_normalise n c) in Ex0; [|assumption]. inv_bind E. apply (shape_eliminate n c) in Ex1; [|assumption].
  eapply IH; eassumption.
Qed.

Lemma newvar_inv w e Fs L p h' n x m k c : owns w e Fs L -> grows (mem w) h' n -> repr 0 h' x m (seq (length (mem w)) n) -> shape m k c -> lost e p = 0 ->
  orel (Rstep e L p) (newvar w (h', x)) (def e m).
Proof.
  intros O G R S E. unfold newvar, def. cbn [fst snd orel]. split; [reflexivity|]. exists L. cbn [fst snd].
  split; [|lia]. apply (inv_new w e Fs L h' n x m (seq (length (mem w)) n) [] O G R (shape_self _ _ _ S)). now rewrite app_nil_r.
Qed.
Lemma upd_inv w e Fs L p i x m F h' m' n c : owns w e Fs L -> nth_error (vars w) i = Some (Some x) -> nth_error e i = Some (Some m) ->
  nth_error Fs i = Some F -> Rin (mem w) x F 0 h' m' -> shape m' n c -> lost e p = 0 ->
  orel (Rstep e L p) (Ok (World (vars w) h', RNone)) (Ok (upd e i (Some m'), RNone)).
Proof.
  intros O Ev Ee EF (R & Fr) S E. cbn [orel]. split; [reflexivity|]. exists L. cbn [fst snd]. split; [|lia].
  eapply inv_inplace; try eassumption. eapply shape_self; exact S.
Qed.
Lemma same_inv w e Fs L p r : owns w e Fs L -> lost e p = 0 -> orel (Rstep e L p) (Ok (w, r)) (Ok (e, r)).
Proof. intros O E. cbn. split; [reflexivity|]. exists L. cbn. split; [exists Fs; exact O|lia]. Qed.

Lemma step_inv w e L p : Inv w e L -> orel (Rstep e L p) (mstep o f w p) (vstep o f e p).
Proof.
  intros (Fs & O). unfold mstep, vstep. cbv zeta.
  Ltac get i x m F O := let E1 := fresh "E1" in let E2 := fresh "E2" in let V := fresh "V" x in let W := fresh "W" m in let FF := fresh "FF" F in let R := fresh "R" x in let S := fresh "S" m in
    destruct (owns_var _ _ _ _ i O) as [(x & m & F & E1 & E2 & V & W & FF & R & S)|(E1 & E2)]; rewrite E1, E2; cbn [bind]; [|exact I].
  destruct p as [n m|ini|i|i j|i|i r c|i r c v|i j|i j|i j|i j|i j|i j|i j|i n|i].
  - destruct (Z.lt_ge_cases n 0) as [Hn|Hn]; [|destruct (Z.lt_ge_cases m 0) as [Hm|Hm]].
    1,2: destruct (hmk_err o (mem w) n m ltac:(lia)) as (-> & ->); exact I.
    destruct (hmk_ok o (mem w) n m Hn Hm) as (h' & a & -> & E & G & R). rewrite E. cbn [bind].
    destruct (mk_shape o n m Hn Hm) as (a' & E' & S' & _). replace a' with a in * by congruence. eapply newvar_inv; eauto.
  - destruct (hof_lists_ok o f (mem w) ini) as [(h' & m & n & c & -> & -> & S & G & R)|(-> & ->)]; [|exact I]. cbn [bind]. eapply newvar_inv; eauto.
  - get i x m F O. destruct (hcopy_ok o (mem w) x m _ _ F Rx Sm) as (h' & -> & G & R). cbn [bind]. eapply newvar_inv; eauto.
  - get i x m F O. get j y m' F' O. unfold hassign. destruct (Nat.eqb_spec i j) as [<-|N].
    + cbn [bind]. rewrite !upd_same by congruence. destruct w. now apply same_inv with Fs.
    + destruct (hclear_ok (mem w) x m _ _ F Rx Sm) as (h1 & -> & Hl & Hn & Hf). cbn [bind].
      pose proof (inv_end w e Fs L i x m F h1 O Vx Wm FFF Hl Hn Hf) as O1.
      assert (Ry' : repr 0 h1 y m' F').
      { apply (repr_agree 0 (mem w) h1 y m' F' Ry). intros a Ha. apply Hn. intros Hb. eapply (owns_disj w e Fs L i j); eassumption. }
      destruct (hcopy_ok o h1 y m' _ _ F' Ry' Sm') as (h2 & -> & G & R). cbn [bind].
      cbn [orel]. split; [reflexivity|]. exists L. cbn [fst snd]. split; [|cbn; lia].
      rewrite <- (upd_upd (vars w) i None), <- (upd_upd e i None).
      apply (inv_refill (World (upd (vars w) i None) h1) (upd e i None) (upd Fs i []) L i _ m' h2 (S (Z.to_nat (row m'))) O1); cbn [vars mem]; try assumption.
      all: apply nth_error_upd_eq; apply nth_error_Some; congruence.
  - get i x m F O. destruct (hclear_ok (mem w) x m _ _ F Rx Sm) as (h1 & -> & Hl & Hn & Hf). cbn [bind orel].
    split; [reflexivity|]. exists L. cbn [fst snd]. split; [|cbn; lia]. exists (upd Fs i []). eapply inv_end; eassumption.
  - get i x m F O. rewrite (hget_repr _ _ _ _ _ _ _ Rx). apply orel_same. intros v _. now apply same_inv with Fs.
  - get i x m F O. eapply orel_bind.
    { eapply orel_imp; [apply (hset_sim (mem w) 0 (mem w) x m F r c v); apply Rin_refl; exact Rx|].
      intros h' m' _ Em Hr. exact (conj Hr (shape_mset _ _ _ _ _ _ _ Sm Em)). }
    cbv beta. intros h' m' (Hr & Hs). eapply upd_inv; try eassumption. reflexivity.
  - get i x m F O. get j y m' F' O. rewrite (heq_same o (mem w) x y m m' F F' Rx Ry). apply orel_same. intros b _. now apply same_inv with Fs.
  - get i x m F O. get j y m' F' O. unfold add.
    destruct (Z.eq_dec (row m) (row m')) as [Hr|Hr]; [destruct (Z.eq_dec (col m) (col m')) as [Hc|Hc]|].
    2,3: destruct (hzip_err o (oadd o) (mem w) x y m m' F F' Rx Ry ltac:(tauto)) as (-> & -> & _); exact I.
    rewrite <- Hr, <- Hc in Sm'. destruct (hzip_ok o (oadd o) (mem w) x y m m' F F' _ _ Rx Ry Sm Sm') as (h' & r & -> & -> & Sr & G & R). cbn [bind]. eapply newvar_inv; eauto.
  - get i x m F O. get j y m' F' O. unfold sub.
    destruct (Z.eq_dec (row m) (row m')) as [Hr|Hr]; [destruct (Z.eq_dec (col m) (col m')) as [Hc|Hc]|].
    2,3: destruct (hzip_err o (osub o) (mem w) x y m m' F F' Rx Ry ltac:(tauto)) as (-> & -> & _); exact I.
    rewrite <- Hr, <- Hc in Sm'. destruct (hzip_ok o (osub o) (mem w) x y m m' F F' _ _ Rx Ry Sm Sm') as (h' & r & -> & -> & Sr & G & R). cbn [bind]. eapply newvar_inv; eauto.
  - get i x m F O. get j y m' F' O. destruct (Z.eq_dec (col m) (row m')) as [Hc|Hc].
    + rewrite <- Hc in Sm'. destruct (hmul_ok o (mem w) x y m m' F F' _ _ _ Rx Ry Sm Sm') as (h' & r & z & -> & -> & Sr & G & R). cbn [bind].
      unfold newvar, def. cbn [fst snd orel]. split; [reflexivity|]. cbn [fst snd]. set (n := Z.to_nat (row m)) in *.
      exists (seq (length (mem w)) (S (S n)) ++ L). split.
      * eapply (inv_new w e Fs L h' _ z r); try eassumption; [eapply shape_self; exact Sr|].
        rewrite seq_app. apply Permutation_app_comm.
      * rewrite app_length, seq_length. cbn [lost]. unfold var. rewrite Wm. destruct (shape_nonneg _ _ _ Sm) as (H0 & _). subst n. lia.
    + destruct (hproduct_err o (mem w) x y m m' F F' Rx Ry Hc) as (E1' & -> & _). unfold hmul. rewrite E1'. exact I.
  - get i x m F O. get j y m' F' O. unfold add_assign.
    destruct (Z.eq_dec (row m) (row m')) as [Hr|Hr]; [destruct (Z.eq_dec (col m) (col m')) as [Hc|Hc]|].
    2,3: destruct (hzip_err o (oadd o) (mem w) x y m m' F F' Rx Ry ltac:(tauto)) as (_ & _ & -> & ->); exact I.
    rewrite <- Hr, <- Hc in Sm'. destruct (Nat.eq_dec i j) as [<-|N].
    + replace y with x in * by congruence. replace m' with m in * by congruence. replace F' with F in * by congruence.
      destruct (hzip_assign_self o (oadd o) (mem w) x m F _ _ Rx Sm) as (h' & r & -> & -> & Sr & Fr & R). cbn [bind].
      eapply upd_inv; try eassumption; [split; assumption|reflexivity].
    + destruct (hzip_assign_ok o (oadd o) (mem w) x y m m' F F' _ _ Rx Ry Sm Sm') as (h' & r & -> & -> & Sr & Fr & R).
      { intros q Hq Hq'. eapply (owns_disj w e Fs L i j); eassumption. }
      cbn [bind]. eapply upd_inv; try eassumption; [split; assumption|reflexivity].
  - get i x m F O. get j y m' F' O. unfold sub_assign.
    destruct (Z.eq_dec (row m) (row m')) as [Hr|Hr]; [destruct (Z.eq_dec (col m) (col m')) as [Hc|Hc]|].
    2,3: destruct (hzip_err o (osub o) (mem w) x y m m' F F' Rx Ry ltac:(tauto)) as (_ & _ & -> & ->); exact I.
    rewrite <- Hr, <- Hc in Sm'. destruct (Nat.eq_dec i j) as [<-|N].
    + replace y with x in * by congruence. replace m' with m in * by congruence. replace F' with F in * by congruence.
      destruct (hzip_assign_self o (osub o) (mem w) x m F _ _ Rx Sm) as (h' & r & -> & -> & Sr & Fr & R). cbn [bind].
      eapply upd_inv; try eassumption; [split; assumption|reflexivity].
    + destruct (hzip_assign_ok o (osub o) (mem w) x y m m' F F' _ _ Rx Ry Sm Sm') as (h' & r & -> & -> & Sr & Fr & R).
      { intros q Hq Hq'. eapply (owns_disj w e Fs L i j); eassumption. }
      cbn [bind]. eapply upd_inv; try eassumption; [split; assumption|reflexivity].
  - get i x m F O. get j y m' F' O. destruct (Z.eqb_spec (col m) (row m')) as [Hc|Hc].
    + rewrite <- Hc in Sm'. rewrite (hmul_assign_ub o (mem w) x y m m' F F' _ _ _ Rx Ry Sm Sm'). exact I.
    + destruct (hproduct_err o (mem w) x y m m' F F' Rx Ry Hc) as (E1' & _). unfold hmul_assign. rewrite E1'. exact I.
  - get i x m F O. destruct (hpow_sim o _ _ m Sm 33 (mem w) x F n Rx) as [(h1 & z & -> & -> & G & R)|(s & -> & Hs & Hrel)].
    2:{ destruct Hs as [->|[->| ->]]; destruct (pow o 33 m n); cbn in *; tauto. }
    cbn [bind]. destruct (hcopy_ok o h1 z m _ _ _ R Sm) as (h2 & -> & G2 & R2). cbn [bind].
    unfold newvar, def. cbn [fst snd orel]. split; [reflexivity|]. cbn [fst snd]. set (k := Z.to_nat (row m)) in *.
    exists (seq (length (mem w)) (S (S k)) ++ L). split.
    + eapply (inv_new w e Fs L h2 _ _ m); [exact O|eapply grows_trans; eassumption|exact R2|exact Sm|].
      rewrite seq_app. replace (length h1) with (length (mem w) + S (S k))%nat by (destruct G; lia). apply Permutation_app_comm.
    + rewrite app_length, seq_length. cbn [lost]. unfold var. rewrite Wm. destruct (shape_nonneg _ _ _ Sm) as (H0 & _). subst k. lia.
  - get i x m F O. eapply orel_bind.
    { eapply orel_imp; [apply (hreduce_sim o (mem w) x m F Rx)|].
      intros h' m' _ Em Hr. exact (conj Hr (shape_reduce_loop _ _ _ _ _ _ _ Sm Em)). }
    cbv beta. intros h' m' (Hr & Hs). eapply upd_inv; try eassumption. reflexivity.
Qed.

Lemma run_inv : forall ps w e L, Inv w e L ->
  orel (fun a b => snd a = snd (fst b) /\ exists L', Inv (fst a) (fst (fst b)) L' /\ Z.of_nat (length L') = Z.of_nat (length L) + snd b) (mrun o f w ps) (vrun o f e ps).
Proof.
  induction ps as [|p ps IH]; intros w e L H; cbn [mrun vrun].
  - cbn. split; [reflexivity|]. exists L. split; [assumption|lia].
  - eapply orel_bind; [apply (step_inv w e L p H)|]. intros [w1 r1] [e1 r1'] (E & L1 & I1 & H1). cbn [fst snd] in *. subst r1'.
    eapply orel_bind; [apply (IH w1 e1 L1 I1)|]. intros [w2 rs] [[e2 rs'] k] (E & L2 & I2 & H2). cbn [fst snd] in *. subst rs'.
    cbn [orel fst snd]. split; [reflexivity|]. exists L2. split; [assumption|lia].
Qed.
Lemma inv_start : Inv (World [] []) [] [].
Proof.
  exists []. split; [|split]; cbn.
  - intros k. now destruct k.
  - constructor.
  - intros a. split; [|tauto]. intros (b & E). now destruct a.
Qed.
(** counting *)
Lemma allocated_count (h : heap) : exists l, NoDup l /\ (forall a, alive h a <-> In a l) /\ allocated h = Z.of_nat (length l).
Proof.
  induction h as [|b h (l & ND & Al & E)].
  - exists []. split; [constructor|]. split; [|reflexivity]. intros a. split; [|intros []]. intros (c & Ec). now destruct a.
  - assert (N0 : ~ In 0%nat (map S l)) by (rewrite in_map_iff; intros (x & Hx & _); discriminate).
    assert (NS : NoDup (map S l)) by (apply FinFun.Injective_map_NoDup; [intros x y Hxy; congruence|assumption]).
    assert (AS : forall a, alive h a <-> In (S a) (map S l)).
    { intros a. rewrite Al, in_map_iff. split; [intros; exists a; auto|]. intros (x & Hx & Hi). congruence. }
    destruct b as [b|].
    + exists (0%nat :: map S l). split; [now constructor|]. split.
      * intros [|a]; cbn [In]; [split; [auto|]; intros _; exists b; reflexivity|].
        split; [|intros [H|H]; [discriminate|]]; [intros H; right|]; [now apply AS|now apply AS].
      * cbn [allocated length]. rewrite map_length. lia.
    + exists (map S l). split; [assumption|]. split.
      * intros [|a]; [split; [intros (c & Ec); discriminate|tauto]|]. apply AS.
      * cbn [allocated]. now rewrite map_length.
Qed.
Lemma held_count : forall (e : env) vs (h : heap) Fs, (forall k, slot h (nth_error vs k) (nth_error e k) (nth_error Fs k)) -> held e = Z.of_nat (length (concat Fs)).
Proof.
  induction e as [|c e IH]; intros vs h Fs H.
  - specialize (H 0%nat). destruct vs as [|v vs], Fs as [|F Fs]; cbn in H; try reflexivity; try (destruct v; contradiction). contradiction.
  - pose proof (H 0%nat) as H0. destruct vs as [|v vs], Fs as [|F Fs]; cbn in H0; try (destruct c; contradiction); try contradiction.
    { destruct v as [?|], c; contradiction. }
    cbn [concat]. rewrite app_length, Nat2Z.inj_add. assert (IHe : held e = Z.of_nat (length (concat Fs))) by (apply (IH vs h); intros k; apply (H (S k))).
    destruct v as [x|], c as [m|]; try contradiction.
    + cbn [held]. rewrite IHe. destruct H0 as (R & Sm). pose proof (repr_size _ _ _ _ _ R) as Hs. pose proof Sm as (_ & _ & _ & Hp & _ & HL & _). lia.
    + subst F. cbn [held length]. lia.
Qed.
Lemma inv_count w e L : Inv w e L -> allocated (mem w) = held e + Z.of_nat (length L).
Proof.
  intros (Fs & Sl & ND & Al). destruct (allocated_count (mem w)) as (l & NDl & All & ->). rewrite (held_count e (vars w) (mem w) Fs Sl).
  assert (P : Permutation l (concat Fs ++ L)). { apply NoDup_Permutation; [assumption|assumption|]. intros a. now rewrite <- All, <- Al. }
  rewrite (Permutation_length P), app_length. lia.
Qed.
End Main.
Lemma vrun_no_loss {A} (o : ops A) f : forall ps e e' rs k, forallb (fun p => negb (multiplies p)) ps = true -> vrun o f e ps = Ok (e', rs, k) -> k = 0.
Proof.
  induction ps as [|p ps IH]; intros e e' rs k H E; cbn [vrun forallb] in *; [congruence|]. apply andb_prop in H. destruct H as (H1 & H2).
  destruct (vstep o f e p) as [[e1 r]| | |]; cbn [bind] in E; try discriminate.
  destruct (vrun o f e1 ps) as [[[e2 rs2] k2]| | |] eqn:E2; cbn [bind] in E; try discriminate.
  apply IH in E2; [|assumption]. destruct p; cbn in *; try discriminate; inversion E; lia.
Qed.
