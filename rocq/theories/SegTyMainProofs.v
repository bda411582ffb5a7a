(** SegmentTree at every integer type: whole programs. *)
From Verif Require Import Base SegModel SegSpec IntTyModel IntTySpec IntTyProofs SegTyModel SegTySpec SegTyProofs.
Local Open Scope Z_scope.

(** ** the vectors keep their length *)
Definition keeps {X} (n : nat) (p : X -> tree) (m : outcome X) : Prop := forall x, m = Ok x -> length (p x) = n.
Notation keep n := (keeps n (fun s : tree => s)).
Lemma keeps_bind {X Y} n (p : X -> tree) (q : Y -> tree) m f :
  keeps n p m -> (forall x, length (p x) = n -> keeps n q (f x)) -> keeps n q (bind m f).
Proof. intros H K y E. destruct m as [x| | |]; try discriminate. exact (K x (H x eq_refl) y E). Qed.
Lemma keeps_any {X Y} n (q : Y -> tree) (m : outcome X) f : (forall x, keeps n q (f x)) -> keeps n q (bind m f).
Proof. intros K y E. destruct m as [x| | |]; try discriminate. exact (K x y E). Qed.
Lemma keep_aset n (s : tree) i c : length s = n -> keep n (aset s i c).
Proof. intros H s' E. unfold aset in E. destruct (_ || _)%bool; [discriminate|]. injection E as <-. rewrite <- H. clear. generalize (Z.to_nat i). induction s as [|a s IH]; intros [|k]; cbn; congruence. Qed.
Lemma keep_ok n (s : tree) : length s = n -> keep n (Ok s).
Proof. intros H s' [= <-]. exact H. Qed.
Lemma update_keeps n o l r s : length s = n -> keep n (update o l r s).
Proof.
  intros H. unfold update, push_mul, push_add. cbv zeta. apply keeps_any. intros c. apply (keeps_bind n (fun s => s)).
  - destruct (hmul c); [|now apply keep_ok]. apply (keeps_bind n (fun s => s)); [now apply keep_aset|]. intros s1 H1.
    apply (keeps_bind n (fun s => s)); [apply keeps_any; intros; now apply keep_aset|]. intros s2 H2. apply keeps_any. intros. now apply keep_aset.
  - intros s1 H1. apply keeps_any. intros c1. destruct (hadd c1); [|now apply keep_ok]. apply (keeps_bind n (fun s => s)); [now apply keep_aset|]. intros s2 H2.
    apply (keeps_bind n (fun s => s)); [apply keeps_any; intros; now apply keep_aset|]. intros s3 H3. apply keeps_any. intros. now apply keep_aset.
Qed.
Lemma query_keeps n fuel : forall k lv rv l r o s, length s = n -> keeps n snd (query fuel k lv rv l r o s).
Proof.
  induction fuel as [|f IH]; intros k lv rv l r o s H; cbn [query]; [discriminate|]. apply (keeps_bind n (fun s => s)); [now apply update_keeps|]. intros s1 H1.
  destruct (_ && _)%bool; [apply keeps_any; intros c [x s2] [= <- <-]; exact H1|]. cbv zeta. destruct (rv <=? _); [now apply IH|]. destruct (_ <? lv); [now apply IH|].
  apply (keeps_bind n snd); [now apply IH|]. intros [a s2] H2. apply (keeps_bind n snd); [now apply IH|]. intros [b s3] H3 [x s4] [= <- <-]. exact H3.
Qed.
Lemma interval_keeps n fuel : forall u lv rv l r o s, length s = n -> keep n (interval fuel u lv rv l r o s).
Proof.
  induction fuel as [|f IH]; intros u lv rv l r o s H; cbn [interval]; [discriminate|]. apply (keeps_bind n (fun s => s)); [now apply update_keeps|]. intros s1 H1.
  destruct (_ && _)%bool; [apply keeps_any; intros c; now apply keep_aset|]. cbv zeta. apply (keeps_bind n (fun s => s)).
  - destruct (lv <=? _); [now apply IH|now apply keep_ok].
  - intros s2 H2. destruct (_ <? rv); [now apply IH|now apply keep_ok].
Qed.
Lemma step_keeps n c s : length s = n -> keep n (step c s).
Proof.
  intros H. destruct c; cbn [step]; [|now apply interval_keeps]. apply (keeps_bind n snd); [now apply query_keeps|]. intros [x s1] H1. now apply keep_ok.
Qed.
Lemma init_keeps n v fuel : forall l r o s, length s = n -> keep n (init fuel v l r o s).
Proof.
  induction fuel as [|f IH]; intros l r o s H; cbn [init]; [discriminate|]. destruct (l =? r).
  - do 2 (apply keeps_any; intros ?). now apply keep_aset.
  - cbv zeta. apply (keeps_bind n (fun s => s)); [now apply IH|]. intros s1 H1. apply (keeps_bind n (fun s => s)); [now apply IH|]. intros s2 H2.
    do 3 (apply keeps_any; intros ?). now apply keep_aset.
Qed.

(** ** programs *)
Lemma run_sim t n cs : 0 <= n -> Forall (call_inty t) cs -> forall s s', Z.of_nat (length s) = 4 * n -> Forall2 (crel t) s s' ->
  sim (~ calm t n) (fun s s' => Z.of_nat (length s) = 4 * n /\ Forall2 (crel t) s s') (run_t t cs s') (run cs s).
Proof.
  intros Hn. induction 1 as [|c cs Hc Hcs IH]; intros s s' HL H; cbn [run_t run]; [cbn [sim]; eauto|].
  pose proof (step_sim t n c s s' Hc HL Hn H) as K. pose proof (step_keeps (length s) c s eq_refl) as L.
  destruct (step_t t c s') as [y| | |]; cbn [sim bind] in *.
  - destruct K as (x & E & R). rewrite E. cbn [bind]. apply IH; [|exact R]. now rewrite (L x E).
  - now rewrite K.
  - destruct K as [-> | K]; [now left|now right].
  - now rewrite K.
Qed.
Lemma build_sim t n v : Forall (inty t) v ->
  sim (~ calm t n) (fun s s' => Z.of_nat (length s) = 4 * Z.of_nat (length v) /\ Forall2 (crel t) s s') (build_t t v) (build v).
Proof.
  intros Hv. unfold build_t, build. cbv zeta. set (s0 := repeat _ _).
  assert (Hx : inty t (hd 0 v)) by (destruct Hv; [apply inty_0|assumption]).
  assert (R0 : Forall2 (irel t) s0 s0).
  { unfold s0. generalize (4 * length v)%nat. induction n0 as [|k IH]; cbn [repeat]; constructor; [|exact IH].
    unfold irel, crel. cbn [hadd hmul mn mx sm addf mulf]. rewrite (conv_id t _ Hx). repeat split; assumption. }
  pose proof (init_sim t n v Hv (S (length v)) 0 (Z.of_nat (length v) - 1) 1 s0 s0 R0) as K.
  pose proof (init_keeps (length s0) v (S (length v)) 0 (Z.of_nat (length v) - 1) 1 s0 eq_refl) as L.
  assert (L0 : length s0 = (4 * length v)%nat) by apply repeat_length.
  destruct (init_t _ _ _ _ _ _ _) as [y| | |]; cbn [sim] in *; auto.
  destruct K as (x & E & R). exists x. split; [exact E|]. split; [|now apply irel_crel]. rewrite (L x E). lia.
Qed.
(** the machine program and the exact program *)
Lemma client_sim t v cs k lv rv : Forall (inty t) v -> Forall (call_inty t) cs ->
  sim (~ calm t (Z.of_nat (length v))) (fun x y => k = QSum \/ lv = rv -> y = conv t x) (client_t t v cs k lv rv)
      (s <- build v ;; s <- run cs s ;; omap fst (query0 k lv rv s)).
Proof.
  intros Hv Hcs. unfold client_t. set (n := Z.of_nat (length v)).
  eapply sim_bind; [apply (build_sim t n v Hv)|]. fold n. intros s s' [L R].
  eapply sim_bind; [apply (run_sim t n cs ltac:(lia) Hcs s s' L R)|]. clear s s' L R. intros s s' [L R].
  assert (L' : Z.of_nat (length s') = 4 * n) by now rewrite <- (Forall2_len _ _ _ R).
  assert (Z4 : forall x, 4 * x / 4 = x) by (intros x; rewrite Z.mul_comm; apply Z.div_mul; lia).
  unfold query0_t, query0, size. rewrite L', L, Z4, (Forall2_len _ _ _ R).
  pose proof (query_sim t n (S (length s')) k lv rv 0 (n - 1) 1 s s' R ltac:(lia)) as K.
  destruct (query_t _ _ _ _ _ _ _ _ _) as [[y w]| | |]; cbn [sim omap fst] in *.
  - destruct K as ([x w'] & -> & [E _]). exists x. split; [reflexivity|]. exact E.
  - now rewrite K.
  - destruct K as [-> | K]; [now left|now right].
  - now rewrite K.
Qed.
