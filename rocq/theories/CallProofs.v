From Verif Require Import Base CallModel CallSpec.

Section Proofs.
Context {E F W A B : Type}.
Lemma map_loop_calls (f : @func E F W A B) : forall cont o dn ret w,
  (exists bs ys o' w', calls f o w cont bs ys o' w' /\ mapAll_loop f o dn cont ret w = (Returned (ret ++ bs), dn ++ ys, w')) \/
  (exists e ys w', throws f o w cont e ys w' /\ mapAll_loop f o dn cont ret w = (Thrown e, dn ++ ys, w')).
Proof.
  induction cont as [|v t IH]; intros o dn ret w; cbn [mapAll_loop].
  - left. exists [], [], o, w. rewrite !app_nil_r. split; [constructor|reflexivity].
  - destruct (f o v w) as [[[en o1] y] w1] eqn:C. destruct en as [b|e].
    + destruct (IH o1 (dn ++ [y]) (ret ++ [b]) w1) as [(bs & ys & o' & w' & H & R)|(e & ys & w' & H & R)].
      * left. exists (b :: bs), (y :: ys), o', w'. split; [econstructor; eassumption|]. rewrite R, <- !app_assoc. reflexivity.
      * right. exists e, (y :: ys), w'. split; [|rewrite R, <- !app_assoc; reflexivity].
        destruct H as (bf & x & rest & bs & ys1 & o3 & w3 & o2 & z & -> & K & T & ->). exists (v :: bf), x, rest, (b :: bs), (y :: ys1), o3, w3, o2, z.
        repeat split; [|exact T]. econstructor; eassumption.
    + right. exists e, (y :: t), w1. split; [|reflexivity]. exists [], v, t, [], [], o, w, o1, y. repeat split; [constructor|exact C].
Qed.
Lemma calls_det (f : @func E F W A B) o w xs bs ys o' w' : calls f o w xs bs ys o' w' -> forall bs2 ys2 o2 w2, calls f o w xs bs2 ys2 o2 w2 -> bs2 = bs /\ ys2 = ys /\ o2 = o' /\ w2 = w'.
Proof.
  induction 1 as [|o w x b y o1 w1 xs bs ys o2 w2 C H IH]; intros bs3 ys3 o3 w3 K; inversion K; subst; [repeat split|].
  match goal with X : f o x w = (Returned ?b', ?o1', ?y', ?w1') |- _ => rewrite C in X; injection X as -> -> -> -> end.
  match goal with X : calls f _ _ xs _ _ _ _ |- _ => destruct (IH _ _ _ _ X) as (-> & -> & -> & ->) end. repeat split.
Qed.
Lemma calls_app (f : @func E F W A B) xs1 : forall o w xs2 bs ys o' w', calls f o w (xs1 ++ xs2) bs ys o' w' ->
  exists bs1 ys1 o1 w1 bs2 ys2, calls f o w xs1 bs1 ys1 o1 w1 /\ calls f o1 w1 xs2 bs2 ys2 o' w' /\ bs = bs1 ++ bs2 /\ ys = ys1 ++ ys2.
Proof.
  induction xs1 as [|x xs1 IH]; intros o w xs2 bs ys o' w' H; cbn [app] in H.
  - exists [], [], o, w, bs, ys. repeat split; [constructor|exact H].
  - inversion H as [|? ? ? b y o1 w1 ? bs' ys' ? ? C K]; subst. destruct (IH _ _ _ _ _ _ _ K) as (bs1 & ys1 & o2 & w2 & bs2 & ys2 & K1 & K2 & -> & ->).
    exists (b :: bs1), (y :: ys1), o2, w2, bs2, ys2. repeat split; [econstructor; eassumption|exact K2].
Qed.
Lemma not_both (f : @func E F W A B) o w xs bs ys o' w' e zs w2 : calls f o w xs bs ys o' w' -> throws f o w xs e zs w2 -> False.
Proof.
  intros H (bf & x & rest & bs' & ys1 & o1 & w1 & o2 & y & -> & K & T & ->). apply calls_app in H as (bs1 & ys2 & o3 & w3 & bs2 & ys3 & K1 & K2 & _).
  destruct (calls_det _ _ _ _ _ _ _ _ K _ _ _ _ K1) as (-> & -> & -> & ->). inversion K2; subst. congruence.
Qed.
Lemma calls_length (f : @func E F W A B) o w xs bs ys o' w' : calls f o w xs bs ys o' w' -> length bs = length xs /\ length ys = length xs.
Proof. induction 1; cbn; [split; reflexivity|]. destruct IHcalls. split; congruence. Qed.
Lemma throws_det (f : @func E F W A B) o w xs e ys w' e2 ys2 w2 : throws f o w xs e ys w' -> throws f o w xs e2 ys2 w2 -> e2 = e /\ ys2 = ys /\ w2 = w'.
Proof.
  intros (bf & x & rest & bs & ys1 & o1 & w1 & o2 & y & -> & K & T & ->) (bf' & x' & rest' & bs' & ys1' & o1' & w1' & o2' & y' & EQ & K' & T' & ->).
  revert o w bf' EQ bs ys1 K bs' ys1' K'. induction bf as [|a bf IH]; intros o w bf' EQ bs ys1 K bs' ys1' K'.
  - inversion K; subst. destruct bf' as [|a' bf']; cbn in EQ; injection EQ as -> EQ.
    + inversion K'; subst. rewrite T in T'. injection T' as -> -> -> ->. repeat split.
    + inversion K'; subst. congruence.
  - destruct bf' as [|a' bf']; cbn in EQ; injection EQ as -> EQ.
    + inversion K'; subst. inversion K; subst. congruence.
    + inversion K as [|? ? ? b0 y0 oa wa ? bsa ysa ? ? CA KA]; subst. inversion K' as [|? ? ? b1 y1 ob wb ? bsb ysb ? ? CB KB]; subst. rewrite CA in CB. injection CB as -> -> -> ->.
      destruct (IH _ _ _ EQ _ _ KA _ _ KB) as (-> & Y & ->). repeat split. cbn [app]. now f_equal.
Qed.
End Proofs.
Lemma skip_len {A} (l k : list A) : skipn (length l) (l ++ k) = k.
Proof. induction l; [reflexivity|assumption]. Qed.
Section FilterProofs.
Context {E F W A : Type}.
Lemma filter_loop_map (f : @func E F W A bool) : forall cont o dn ret w acc,
  filter_loop f o dn cont ret w =
  match mapAll_loop f o dn cont acc w with
  | (Returned bs, ys, w') => (Returned (ret ++ chosen (skipn (length dn) ys) (skipn (length acc) bs)), ys, w')
  | (Thrown e, ys, w') => (Thrown e, ys, w')
  end.
Proof.
  induction cont as [|v t IH]; intros o dn ret w acc; cbn [filter_loop mapAll_loop].
  - rewrite !skipn_all. cbn. now rewrite app_nil_r.
  - destruct (f o v w) as [[[en o1] y] w1]. destruct en as [b|e]; [|reflexivity]. rewrite (IH o1 (dn ++ [y]) (if b then ret ++ [y] else ret) w1 (acc ++ [b])).
    destruct (map_loop_calls f t o1 (dn ++ [y]) (acc ++ [b]) w1) as [(bs & ys & o' & w' & H & R)|(e & ys & w' & H & R)]; rewrite R; [|reflexivity].
    rewrite !skip_len. rewrite <- !app_assoc. rewrite !skip_len. cbn [app chosen].
    destruct b; cbn; [now rewrite <- app_assoc|reflexivity].
Qed.
End FilterProofs.
