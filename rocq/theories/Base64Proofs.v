From Verif Require Import Base Base64Model Base64Spec.
Ltac Zify.zify_post_hook ::= Z.div_mod_to_equations.

Lemma bitset_length n v : length (bitset_string n v) = n.
Proof. induction n; simpl; auto. Qed.

Definition cbits (c : ascii) : list bool := bitset_string 8 (N_of_ascii c).

Lemma cbits_Ascii b0 b1 b2 b3 b4 b5 b6 b7 :
  cbits (Ascii b0 b1 b2 b3 b4 b5 b6 b7) = [b7; b6; b5; b4; b3; b2; b1; b0].
Proof. destruct b0, b1, b2, b3, b4, b5, b6, b7; reflexivity. Qed.

Definition b2z (b : bool) : Z := if b then 1%Z else 0%Z.
Lemma byteZ_Ascii b0 b1 b2 b3 b4 b5 b6 b7 :
  byteZ (Ascii b0 b1 b2 b3 b4 b5 b6 b7) =
  (b2z b0 + 2 * b2z b1 + 4 * b2z b2 + 8 * b2z b3 + 16 * b2z b4 + 32 * b2z b5
   + 64 * b2z b6 + 128 * b2z b7)%Z.
Proof. destruct b0, b1, b2, b3, b4, b5, b6, b7; reflexivity. Qed.

Lemma b2z_range b : (0 <= b2z b <= 1)%Z.
Proof. destruct b; simpl; lia. Qed.

Definition sym6 (w : list bool) : ascii := nth (bits_ulong w) codes NUL.
Lemma sym6_spec x5 x4 x3 x2 x1 x0 v :
  v = (b2z x0 + 2 * b2z x1 + 4 * b2z x2 + 8 * b2z x3 + 16 * b2z x4 + 32 * b2z x5)%Z ->
  sym6 [x5; x4; x3; x2; x1; x0] = rfc_symbol v.
Proof. intros ->. destruct x0, x1, x2, x3, x4, x5; reflexivity. Qed.

Lemma flat_cbits_length s : length (flat_map cbits s) = 8 * length s.
Proof.
  induction s as [|c s IH]; [reflexivity|].
  cbn [flat_map]. rewrite app_length, IH. unfold cbits. rewrite bitset_length.
  cbn [length]. lia.
Qed.

Lemma substrs_fuel it k l : 0 < k -> length l <= it -> substrs it k l = substrs (length l) k l.
Proof.
  intros Hk.
  assert (G : forall m it l, length l <= m -> length l <= it ->
            substrs it k l = substrs m k l).
  { induction m as [|m IH]; intros it' m0 Hm Hi.
    - destruct m0; [destruct it'; reflexivity|simpl in Hm; lia].
    - destruct m0 as [|x m0]; [destruct it'; reflexivity|].
      destruct it' as [|it']; [simpl in Hi; lia|].
      cbn [substrs]. f_equal. apply IH.
      + rewrite skipn_length. cbn [length] in *. lia.
      + rewrite skipn_length. cbn [length] in *. lia. }
  intros H. apply G; lia.
Qed.

(** chunks with exact fuel *)
Definition chunks k l := substrs (length l) k l.
Lemma chunks_nil k : chunks k [] = [].
Proof. reflexivity. Qed.
Lemma chunks_app k w l : 0 < k -> length w = k -> chunks k (w ++ l) = w :: chunks k l.
Proof.
  intros Hk Hw. unfold chunks.
  destruct w as [|x w]; [simpl in Hw; lia|].
  cbn [app length substrs].
  change (x :: w ++ l) with ((x :: w) ++ l).
  rewrite firstn_app, skipn_app, firstn_all2 by lia.
  rewrite (skipn_all2 (x::w)) by lia.
  replace (k - length (x :: w)) with 0 by lia. cbn [firstn skipn app].
  rewrite app_nil_r. f_equal. apply substrs_fuel; [lia|].
  rewrite app_length. lia.
Qed.

Lemma concat_chunks k n l : 0 < k -> length l = n * k -> concat (chunks k l) = l.
Proof.
  intros Hk. revert l; induction n as [|n IH]; intros l Hl.
  - destruct l; [reflexivity|simpl in Hl; lia].
  - rewrite <- (firstn_skipn k l) at 1.
    rewrite chunks_app; [|lia|rewrite firstn_length; lia].
    cbn [concat]. rewrite IH; [apply firstn_skipn|].
    rewrite skipn_length. lia.
Qed.
Lemma chunks_Forall k n l : 0 < k -> length l = n * k -> Forall (fun w => length w = k) (chunks k l).
Proof.
  intros Hk. revert l; induction n as [|n IH]; intros l Hl.
  - destruct l; [constructor|simpl in Hl; lia].
  - rewrite <- (firstn_skipn k l).
    rewrite chunks_app; [|lia|rewrite firstn_length; lia].
    constructor; [rewrite firstn_length; lia|].
    apply IH. rewrite skipn_length. lia.
Qed.
Lemma chunks_length k n l : 0 < k -> length l = n * k -> length (chunks k l) = n.
Proof.
  intros Hk. revert l; induction n as [|n IH]; intros l Hl.
  - destruct l; [reflexivity|simpl in Hl; lia].
  - rewrite <- (firstn_skipn k l).
    rewrite chunks_app; [|lia|rewrite firstn_length; lia].
    cbn [length]. f_equal. apply IH. rewrite skipn_length. lia.
Qed.

Lemma encode_body_eq s :
  encode_body s = map sym6 (chunks 6 (pad_zeros 6 (flat_map cbits s))).
Proof. reflexivity. Qed.

Lemma pad_zeros_app k w l : 0 < k -> length w mod k = 0 ->
  pad_zeros k (w ++ l) = w ++ pad_zeros k l.
Proof.
  intros Hk Hw. unfold pad_zeros. rewrite app_length.
  rewrite Nat.add_mod, Hw, Nat.add_0_l, Nat.mod_mod by lia.
  destruct (length l mod k); [reflexivity|]. now rewrite app_assoc.
Qed.

Lemma encode_step a b c r :
  encode_body (a :: b :: c :: r) = encode_body [a; b; c] ++ encode_body r.
Proof.
  rewrite !encode_body_eq.
  replace (flat_map cbits (a :: b :: c :: r))
    with (flat_map cbits [a; b; c] ++ flat_map cbits r)
    by (cbn [flat_map]; rewrite app_nil_r, !app_assoc; reflexivity).
  rewrite pad_zeros_app by (rewrite ?flat_cbits_length; cbn [length]; try lia; reflexivity).
  set (Q := pad_zeros 6 (flat_map cbits r)).
  destruct a as [a0 a1 a2 a3 a4 a5 a6 a7], b as [b0 b1 b2 b3 b4 b5 b6 b7],
    c as [c0 c1 c2 c3 c4 c5 c6 c7].
  cbn [flat_map]. rewrite !cbits_Ascii. cbn [app].
  change (a7 :: a6 :: a5 :: a4 :: a3 :: a2 :: a1 :: a0 :: b7 :: b6 :: b5 :: b4 :: b3 :: b2
   :: b1 :: b0 :: c7 :: c6 :: c5 :: c4 :: c3 :: c2 :: c1 :: c0 :: Q) with
   ([a7; a6; a5; a4; a3; a2] ++ [a1; a0; b7; b6; b5; b4] ++ [b3; b2; b1; b0; c7; c6]
     ++ [c5; c4; c3; c2; c1; c0] ++ Q).
  rewrite !chunks_app by (reflexivity || lia).
  reflexivity.
Qed.

Lemma rfc_body_step a b c r :
  rfc_body (a :: b :: c :: r) = rfc_body [a; b; c] ++ rfc_body r.
Proof. reflexivity. Qed.

Ltac bitr := repeat match goal with
  | |- context [b2z ?b] => lazymatch goal with
      | _ : (0 <= b2z b <= 1)%Z |- _ => fail
      | _ => pose proof (b2z_range b) end
  end.

Lemma group24 ha la hb lb hc lc :
  (0 <= ha < 64 -> 0 <= la < 4 -> 0 <= hb < 16 -> 0 <= lb < 16 -> 0 <= hc < 4 -> 0 <= lc < 64 ->
   let v := (la + 4 * ha) * 65536 + (lb + 16 * hb) * 256 + (lc + 64 * hc) in
   v / 262144 = ha /\ v / 4096 mod 64 = hb + 16 * la /\ v / 64 mod 64 = hc + 4 * lb
   /\ v mod 64 = lc)%Z.
Proof. intros. subst v. repeat split; lia. Qed.

Lemma byte_6_2 a0 a1 a2 a3 a4 a5 a6 a7 :
  byteZ (Ascii a0 a1 a2 a3 a4 a5 a6 a7) =
  ((b2z a0 + 2 * b2z a1) + 4 * (b2z a2 + 2 * b2z a3 + 4 * b2z a4 + 8 * b2z a5
     + 16 * b2z a6 + 32 * b2z a7))%Z.
Proof. destruct a0, a1, a2, a3, a4, a5, a6, a7; reflexivity. Qed.
Lemma byte_4_4 a0 a1 a2 a3 a4 a5 a6 a7 :
  byteZ (Ascii a0 a1 a2 a3 a4 a5 a6 a7) =
  ((b2z a0 + 2 * b2z a1 + 4 * b2z a2 + 8 * b2z a3) + 16 * (b2z a4 + 2 * b2z a5
     + 4 * b2z a6 + 8 * b2z a7))%Z.
Proof. destruct a0, a1, a2, a3, a4, a5, a6, a7; reflexivity. Qed.
Lemma byte_2_6 a0 a1 a2 a3 a4 a5 a6 a7 :
  byteZ (Ascii a0 a1 a2 a3 a4 a5 a6 a7) =
  ((b2z a0 + 2 * b2z a1 + 4 * b2z a2 + 8 * b2z a3 + 16 * b2z a4 + 32 * b2z a5)
    + 64 * (b2z a6 + 2 * b2z a7))%Z.
Proof. destruct a0, a1, a2, a3, a4, a5, a6, a7; reflexivity. Qed.

Ltac Zify.zify_post_hook ::= idtac.

Lemma encode3 a b c : encode_body [a; b; c] = rfc_body [a; b; c].
Proof.
  destruct a as [a0 a1 a2 a3 a4 a5 a6 a7], b as [b0 b1 b2 b3 b4 b5 b6 b7],
    c as [c0 c1 c2 c3 c4 c5 c6 c7].
  rewrite encode_body_eq. cbn [flat_map]. rewrite !cbits_Ascii.
  change (map sym6 [[a7; a6; a5; a4; a3; a2]; [a1; a0; b7; b6; b5; b4];
    [b3; b2; b1; b0; c7; c6]; [c5; c4; c3; c2; c1; c0]] =
    rfc_body [Ascii a0 a1 a2 a3 a4 a5 a6 a7; Ascii b0 b1 b2 b3 b4 b5 b6 b7;
              Ascii c0 c1 c2 c3 c4 c5 c6 c7]).
  unfold rfc_body. cbn [map].
  rewrite byte_6_2, byte_4_4, byte_2_6.
  match goal with |- context [((?la + 4 * ?ha) * 65536 + (?lb + 16 * ?hb) * 256 + (?lc + 64 * ?hc))%Z] =>
    destruct (group24 ha la hb lb hc lc) as (-> & -> & -> & ->) end; bitr; try lia.
  repeat (apply f_equal2; [apply sym6_spec; lia|]). reflexivity.
Qed.
Lemma encode2 a b : encode_body [a; b] = rfc_body [a; b].
Proof.
  destruct a as [a0 a1 a2 a3 a4 a5 a6 a7], b as [b0 b1 b2 b3 b4 b5 b6 b7].
  rewrite encode_body_eq. cbn [flat_map]. rewrite !cbits_Ascii.
  change (map sym6 [[a7; a6; a5; a4; a3; a2]; [a1; a0; b7; b6; b5; b4];
    [b3; b2; b1; b0; false; false]] =
    rfc_body [Ascii a0 a1 a2 a3 a4 a5 a6 a7; Ascii b0 b1 b2 b3 b4 b5 b6 b7]).
  unfold rfc_body. cbn [map].
  rewrite byte_6_2, byte_4_4.
  match goal with |- context [((?la + 4 * ?ha) * 65536 + (?lb + 16 * ?hb) * 256)%Z] =>
    destruct (group24 ha la hb lb 0 0 ltac:(bitr; lia) ltac:(bitr; lia) ltac:(bitr; lia)
      ltac:(bitr; lia) ltac:(lia) ltac:(lia)) as (E1 & E2 & E3 & _);
      rewrite ?Z.mul_0_r, ?Z.add_0_r in E1, E2, E3; rewrite E1, E2, E3 end.
  repeat (apply f_equal2; [apply sym6_spec; bitr; cbn [b2z]; lia|]). reflexivity.
Qed.
Lemma encode1 a : encode_body [a] = rfc_body [a].
Proof.
  destruct a as [a0 a1 a2 a3 a4 a5 a6 a7].
  rewrite encode_body_eq. cbn [flat_map]. rewrite !cbits_Ascii.
  change (map sym6 [[a7; a6; a5; a4; a3; a2]; [a1; a0; false; false; false; false]] =
    rfc_body [Ascii a0 a1 a2 a3 a4 a5 a6 a7]).
  unfold rfc_body. cbn [map].
  rewrite byte_6_2.
  match goal with |- context [((?la + 4 * ?ha) * 65536)%Z] =>
    destruct (group24 ha la 0 0 0 0 ltac:(bitr; lia) ltac:(bitr; lia) ltac:(lia)
      ltac:(lia) ltac:(lia) ltac:(lia)) as (E1 & E2 & _);
      rewrite ?Z.mul_0_r, ?Z.mul_0_l, ?Z.add_0_r in E1, E2; rewrite E1, E2 end.
  repeat (apply f_equal2; [apply sym6_spec; bitr; cbn [b2z]; lia|]). reflexivity.
Qed.
Ltac Zify.zify_post_hook ::= Z.div_mod_to_equations.

Lemma list3_ind {A} (P : list A -> Prop) :
  P [] -> (forall a, P [a]) -> (forall a b, P [a; b]) ->
  (forall a b c r, P r -> P (a :: b :: c :: r)) -> forall l, P l.
Proof.
  intros H0 H1 H2 H3.
  assert (G : forall n l, length l <= n -> P l).
  { induction n as [|n IH]; intros l Hl.
    - destruct l; [auto|simpl in Hl; lia].
    - destruct l as [|a [|b [|c r]]]; auto. apply H3, IH. simpl in Hl; lia. }
  intros l. apply (G (length l)); lia.
Qed.

Lemma encode_body_rfc s : encode_body s = rfc_body s.
Proof.
  induction s as [|a|a b|a b c r IH] using list3_ind.
  - reflexivity.
  - apply encode1.
  - apply encode2.
  - rewrite encode_step, rfc_body_step, encode3, IH. reflexivity.
Qed.

Lemma rfc_body_len_mod4 s :
  length (rfc_body s) mod 4 = match length s mod 3 with 1 => 2 | 2 => 3 | _ => 0 end.
Proof.
  induction s as [|a|a b|a b c r IH] using list3_ind; try reflexivity.
  rewrite rfc_body_step, app_length.
  change (length (rfc_body [a; b; c])) with 4.
  replace (4 + length (rfc_body r)) with (length (rfc_body r) + 1 * 4) by lia.
  rewrite Nat.mod_add by lia. rewrite IH.
  replace (length (a :: b :: c :: r)) with (length r + 1 * 3) by (cbn [length]; lia).
  rewrite Nat.mod_add by lia. reflexivity.
Qed.

Lemma encode_default s : base64Encode s (-1) = rfc_encode s.
Proof.
  unfold base64Encode. cbn [Z.ltb Z.compare Z.eqb negb Pos.compare Pos.compare_cont Pos.eqb].
  rewrite encode_body_rfc, rfc_body_len_mod4. unfold rfc_encode, rfc_pad.
  destruct (length s mod 3) as [|[|[|n]]] eqn:E.
  - now rewrite app_nil_r.
  - reflexivity.
  - reflexivity.
  - now rewrite app_nil_r.
Qed.

Lemma rfc_body_length s : length (rfc_body s) = (8 * length s + 5) / 6.
Proof.
  induction s as [|a|a b|a b c r IH] using list3_ind; try reflexivity.
  rewrite rfc_body_step, app_length, IH.
  change (length (rfc_body [a; b; c])) with 4. cbn [length].
  replace (8 * S (S (S (length r))) + 5) with (8 * length r + 5 + 4 * 6) by lia.
  rewrite Nat.div_add by lia. lia.
Qed.

(** ** Decoding *)

Lemma bits_sym6 w : length w = 6 ->
  (if Ascii.eqb (sym6 w) "="%char then [] else bitset_string 6 (find_code (sym6 w))) = w.
Proof.
  intros H.
  destruct w as [|x5 [|x4 [|x3 [|x2 [|x1 [|x0 [|y w]]]]]]]; try discriminate.
  destruct x5, x4, x3, x2, x1, x0; reflexivity.
Qed.

Definition dbits (t : bytes) : list bool :=
  flat_map (fun c => if Ascii.eqb c "="%char then [] else bitset_string 6 (find_code c)) t.

Lemma dbits_app a b : dbits (a ++ b) = dbits a ++ dbits b.
Proof. unfold dbits. apply flat_map_app. Qed.

Lemma dbits_sym ws : Forall (fun w => length w = 6) ws -> dbits (map sym6 ws) = concat ws.
Proof.
  induction 1 as [|w ws Hw _ IH]; [reflexivity|].
  cbn [map concat]. unfold dbits in *. cbn [flat_map]. rewrite bits_sym6 by assumption.
  now rewrite IH.
Qed.

Lemma dbits_eqs n : dbits (repeat "="%char n) = [].
Proof. induction n; [reflexivity|]. cbn [repeat]. exact IHn. Qed.

Lemma pad_zeros_length_mult k l : 0 < k -> exists n, length (pad_zeros k l) = n * k.
Proof.
  intros Hk. unfold pad_zeros. destruct (length l mod k) eqn:E.
  - exists (length l / k). rewrite (Nat.div_mod (length l) k) at 1 by lia. lia.
  - exists (length l / k + 1). rewrite app_length, repeat_length.
    rewrite (Nat.div_mod (length l) k) at 1 by lia.
    pose proof (Nat.mod_upper_bound (length l) k). nia.
Qed.

Definition dec8 (w : list bool) : bytes :=
  let index := bits_ulong w in if Nat.eqb index 0 then [] else [ascii_of_nat index].

Lemma base64Decode_eq t : base64Decode t = flat_map dec8 (chunks 8 (pad_zeros 8 (dbits t))).
Proof. reflexivity. Qed.

Lemma dec8_cbits c : dec8 (cbits c) = if Ascii.eqb c NUL then [] else [c].
Proof.
  destruct c as [b0 b1 b2 b3 b4 b5 b6 b7].
  destruct b0, b1, b2, b3, b4, b5, b6, b7; reflexivity.
Qed.

Definition nonzero (c : ascii) : bool := negb (Ascii.eqb c NUL).

Lemma dec_chunks s z : (z = [] \/ z = repeat false 8) ->
  flat_map dec8 (chunks 8 (flat_map cbits s ++ z)) = filter nonzero s.
Proof.
  intros Hz. induction s as [|c s IH].
  - cbn [flat_map app filter]. destruct Hz as [-> | ->]; reflexivity.
  - cbn [flat_map]. rewrite <- app_assoc.
    rewrite chunks_app; [|lia|apply bitset_length].
    cbn [flat_map filter]. rewrite dec8_cbits, IH. unfold nonzero.
    destruct (Ascii.eqb c NUL); reflexivity.
Qed.

Lemma pad68 l : length l mod 8 = 0 ->
  exists z, pad_zeros 8 (pad_zeros 6 l) = l ++ z /\ (z = [] \/ z = repeat false 8).
Proof.
  intros H. unfold pad_zeros at 2.
  destruct (length l mod 6) as [|r] eqn:E.
  - exists []. rewrite app_nil_r. split; [|auto]. unfold pad_zeros. now rewrite H.
  - unfold pad_zeros. rewrite app_length, repeat_length.
    assert (Hr : S r = 2 \/ S r = 4) by lia.
    destruct Hr as [Hr | Hr]; rewrite Hr in *.
    + replace ((length l + (6 - 2)) mod 8) with 4 by lia.
      exists (repeat false 8). split; [|auto]. rewrite <- app_assoc. reflexivity.
    + replace ((length l + (6 - 4)) mod 8) with 2 by lia.
      exists (repeat false 8). split; [|auto]. rewrite <- app_assoc. reflexivity.
Qed.

Lemma dbits_body s : dbits (encode_body s) = pad_zeros 6 (flat_map cbits s).
Proof.
  rewrite encode_body_eq.
  destruct (pad_zeros_length_mult 6 (flat_map cbits s)) as [n Hn]; [lia|].
  rewrite dbits_sym by (eapply chunks_Forall; [lia|exact Hn]).
  eapply concat_chunks; [lia|exact Hn].
Qed.

Lemma decode_body s t : dbits t = [] ->
  base64Decode (encode_body s ++ t) = filter nonzero s.
Proof.
  intros Ht. rewrite base64Decode_eq, dbits_app, Ht, app_nil_r, dbits_body.
  destruct (pad68 (flat_map cbits s)) as [z [-> Hz]].
  - rewrite flat_cbits_length, Nat.mul_comm. apply Nat.mod_mul. lia.
  - now apply dec_chunks.
Qed.

Lemma decode_encode s : base64Decode (base64Encode s (-1)) = filter nonzero s.
Proof.
  unfold base64Encode. cbn [Z.ltb Z.compare Z.eqb negb Pos.compare Pos.compare_cont Pos.eqb].
  destruct (length (encode_body s) mod 4) as [|[|[|[|n]]]].
  1,2,5: rewrite <- (app_nil_r (encode_body s)); now apply decode_body.
  all: apply decode_body; reflexivity.
Qed.

Lemma decode_encode_len s len :
  (0 <= len < 2147483648)%Z -> (Z.of_nat (length (rfc_body s)) <= len)%Z ->
  base64Decode (base64Encode s len) = filter nonzero s.
Proof.
  intros Hl Hs. rewrite <- encode_body_rfc in Hs. unfold base64Encode.
  destruct (Z.ltb_spec len (-1)); [lia|].
  destruct (Z.eqb_spec len (-1)); [lia|]. cbn [negb].
  rewrite wrap32_id by (unfold in_int32, int32_min, int32_max; lia).
  destruct (Z.ltb_spec len (Z.of_nat (length (encode_body s)))); [lia|].
  apply decode_body, dbits_eqs.
Qed.

Lemma filter_id_iff {A} (f : A -> bool) l : filter f l = l <-> forallb f l = true.
Proof.
  induction l as [|x l IH]; [easy|]. cbn [filter forallb].
  destruct (f x) eqn:E; cbn [andb].
  - rewrite <- IH. split; [congruence|]. now intros ->.
  - split; [|easy]. intros H. exfalso.
    assert (L : length (filter f l) <= length l) by (clear; induction l as [|y l IH]; simpl; [lia|destruct (f y); simpl; lia]).
    rewrite H in L. simpl in L. lia.
Qed.

Lemma nonzero_iff s : forallb nonzero s = true <-> ~ In NUL s.
Proof.
  rewrite forallb_forall. unfold nonzero. split.
  - intros H Hin. specialize (H _ Hin). rewrite Ascii.eqb_refl in H. discriminate.
  - intros H x Hx. destruct (Ascii.eqb_spec x NUL); [subst; contradiction|reflexivity].
Qed.

Lemma decode_filter t u :
  filter (fun c => negb (Ascii.eqb c "="%char)) t =
  filter (fun c => negb (Ascii.eqb c "="%char)) u ->
  base64Decode t = base64Decode u.
Proof.
  intros H. rewrite !base64Decode_eq.
  assert (G : forall v, dbits v = dbits (filter (fun c => negb (Ascii.eqb c "="%char)) v)).
  { intros v. unfold dbits. induction v as [|c v IH]; [reflexivity|].
    cbn [flat_map filter]. destruct (Ascii.eqb c "="%char) eqn:E; cbn [negb].
    - exact IH.
    - cbn [flat_map]. rewrite E. now rewrite IH. }
  rewrite (G t), (G u), H. reflexivity.
Qed.

Definition canon (c : ascii) : ascii :=
  if existsb (Ascii.eqb c) codes then c else "/"%char.

Lemma find_canon c : bitset_string 6 (find_code (canon c)) = bitset_string 6 (find_code c)
  /\ (Ascii.eqb (canon c) "="%char = Ascii.eqb c "="%char).
Proof.
  destruct c as [b0 b1 b2 b3 b4 b5 b6 b7].
  destruct b0, b1, b2, b3, b4, b5, b6, b7; split; reflexivity.
Qed.

Lemma decode_foreign t : base64Decode (map canon t) = base64Decode t.
Proof.
  rewrite !base64Decode_eq. do 3 f_equal. unfold dbits.
  induction t as [|c t IH]; [reflexivity|]. cbn [map flat_map].
  destruct (find_canon c) as [-> ->]. now rewrite IH.
Qed.

Lemma encode_len_cases s len :
  (Z.of_nat (length (rfc_body s)) <= int32_max)%Z ->
  (int32_min <= len <= int32_max)%Z ->
  (len < -1 -> base64Encode s len = [])%Z /\
  (0 <= len < Z.of_nat (length (rfc_body s)) -> base64Encode s len = [])%Z /\
  (0 <= len -> Z.of_nat (length (rfc_body s)) <= len ->
    base64Encode s len = rfc_body s ++ repeat "="%char (Z.to_nat len - length (rfc_body s)))%Z.
Proof.
  intros Hs Hl. unfold base64Encode. rewrite encode_body_rfc.
  unfold int32_min, int32_max in *.
  rewrite wrap32_id by (unfold in_int32, int32_min, int32_max; lia).
  split; [|split].
  - intros H. destruct (Z.ltb_spec len (-1)); [reflexivity|lia].
  - intros H. destruct (Z.ltb_spec len (-1)); [lia|].
    destruct (Z.eqb_spec len (-1)); [lia|]. cbn [negb].
    destruct (Z.ltb_spec len (Z.of_nat (length (rfc_body s)))); [reflexivity|lia].
  - intros H0 H. destruct (Z.ltb_spec len (-1)); [lia|].
    destruct (Z.eqb_spec len (-1)); [lia|]. cbn [negb].
    destruct (Z.ltb_spec len (Z.of_nat (length (rfc_body s)))); [lia|].
    do 2 f_equal. unfold wrapu64. rewrite Z.mod_small by lia. lia.
Qed.
