(** Theorems about references to the values of a Map (C129). *)
From Verif Require Import Base ContModel ContSpec ContProofs MapRefModel MapRefSpec MapRefProofs.
Local Open Scope Z_scope.

(** ** a reference is its key until that key is erased or the Map is cleared; after that it is
    invalid, also if the key is set again *)
Theorem C129_follows : forall {K V} (lt : K -> K -> bool) (default : V) os, weak_order lt ->
  refines (shows lt) glegal gloose (gpost lt default) (Table (fun _ => None) []) os (run (gstep lt default) no_entries os).
Proof.
  intros K V lt default os WO.
  assert (R0 : mrep lt no_entries (Table (fun _ => @None V) [])) by (repeat split; constructor).
  assert (W : Forall (fun _ : gop K V => True) os) by (apply Forall_forall; auto).
  pose proof (run_refines _ _ _ _ _ _ _ (gstep_ok lt WO default) os _ _ R0 W I) as R. unfold refines in *.
  destruct (run (gstep lt default) no_entries os) as [[st rs]| | |]; [|exact R|exact R|exact R]. destruct R as (t & Rt & H). exists t. split; [apply Rt|exact H].
Qed.
Print Assumptions C129_follows.

(** ** without erase and clear no reference is ever lost *)
Theorem C129_kept : forall {K V} (lt : K -> K -> bool) (default : V) os, weak_order lt ->
  forallb (fun o => negb (drops o)) os = true -> numbered 0 os = true ->
  match run (gstep lt default) no_entries os with Ok _ | Err => True | _ => False end.
Proof.
  intros K V lt default os WO D N. pose proof (C129_follows lt default os WO) as R. unfold refines in R. destruct (run (gstep lt default) no_entries os) as [[st rs]| | |]; [exact I|exact I| |exact R].
  destruct R as (os1 & o & os2 & t & rs & -> & H & L & Lo). rewrite forallb_app in D. apply andb_true_iff in D as [D _].
  assert (Q : forall p os1 p' rs, history (fun t o t' r => glegal t o /\ gpost lt default t o t' r) p os1 p' rs -> forallb (fun o => negb (drops o)) os1 = true ->
    numbered (length (keys p)) (os1 ++ o :: os2) = true -> Forall (fun q => q <> None) (keys p) ->
    numbered (length (keys p')) (o :: os2) = true /\ Forall (fun q => q <> None) (keys p')).
  { clear. induction 1 as [p|p q p1 r qs p2 rs [_ P] _ IH]; intros D N F; [auto|]. cbn [forallb] in D. apply andb_true_iff in D as [D1 D2]. cbn [app numbered] in N. apply andb_true_iff in N as [_ N].
    assert (E : length (keys p1) = (length (keys p) + keeps q)%nat /\ Forall (fun q => q <> None) (keys p1)).
    { destruct q; cbn [gpost drops keeps negb] in *; try discriminate.
      - destruct P as (_ & _ & ->). split; [lia|exact F].
      - destruct P as (_ & -> & _). split; [lia|exact F].
      - destruct P as (v & -> & _). split; [lia|exact F].
      - destruct P as (_ & _ & ->). split; [rewrite app_length; cbn; lia|]. apply Forall_app. split; [exact F|]. constructor; [discriminate|constructor].
      - destruct P as (_ & -> & _). split; [rewrite app_length; cbn; lia|]. apply Forall_app. split; [exact F|]. constructor; [discriminate|constructor].
      - destruct P as (-> & _). split; [lia|exact F].
      - destruct P as (_ & -> & _). split; [lia|exact F]. }
    destruct E as [E1 E2]. rewrite <- E1 in N. exact (IH D2 N E2). }
  destruct (Q _ _ _ _ H D N (Forall_nil _)) as [N2 F]. cbn [numbered] in N2. apply andb_true_iff in N2 as [N2 _].
  assert (A : forall h, Nat.ltb h (length (keys t)) = true -> alive t h).
  { intros h B. apply Nat.ltb_lt in B. apply nth_error_Some in B. unfold alive. destruct (nth_error (keys t) h) as [[q|]|] eqn:E; [eauto| |congruence].
    apply nth_error_In in E. exfalso. exact (proj1 (Forall_forall _ _) F None E eq_refl). }
  destruct o; try contradiction; apply L; cbn [glegal]; now apply A.
Qed.
Print Assumptions C129_kept.

(** ** refuted: a reference is valid whenever the Map contains its key *)
Theorem C129_again_refuted :
  ~ (forall os (k : Z) st rs, run (gstep Z.ltb 0) no_entries (GKeepIndex k :: os) = Ok (st, rs) ->
     (exists x, run (gstep Z.ltb 0) no_entries (GKeepIndex k :: os ++ [GGet k]) = Ok (st, rs ++ [RVal x])) ->
     exists x, run (gstep Z.ltb 0) no_entries (GKeepIndex k :: os ++ [GRead 0]) = Ok (st, rs ++ [RVal x])).
Proof.
  intros H. destruct (H [GErase 1; GSet 1 5] 1 (MStore [(1, (1%nat, 5))] 2 [O]) [RNone; RNone; RNone]) as [x E]; [reflexivity|now exists 5|]. vm_compute in E. discriminate.
Qed.
Print Assumptions C129_again_refuted.

Example C129_example :
  (* new keys, assignments and the erasure of others leave a reference alone; a value of the Map itself may be assigned *)
  omap (fun p => (map (fun e => (fst e, snd (snd e))) (entries (fst p)), snd p))
    (run (gstep Z.ltb 0) no_entries
       [GSet 5 50; GKeep 5; GSet 2 20; GSet 9 90; GSetFrom 7 0; GErase 2; GWrite 0 55; GGet 5; GSet 5 56; GRead 0; GKeepIndex 1; GRead 1])
    = Ok ([(1, 0); (5, 56); (7, 50); (9, 90)], [RNone; RNone; RNone; RNone; RNone; RNone; RNone; RVal 55; RNone; RVal 56; RNone; RVal 0]) /\
  run (gstep Z.ltb 0) no_entries [GSet 5 50; GKeep 5; GErase 5; GRead 0] = UB /\
  run (gstep Z.ltb 0) no_entries [GSet 5 50; GKeep 5; GErase 5; GSet 5 51; GWrite 0 1] = UB /\
  run (gstep Z.ltb 0) no_entries [GSet 5 50; GKeep 4] = Err /\
  numbered 0 [GKeepIndex 1; GSet 3 7; GSetFrom 2 0; GRead 0] = true /\ forallb (fun o => negb (drops o)) [GKeepIndex 1; GSet 3 7; GSetFrom 2 0; GRead 0] = true.
Proof. now vm_compute. Qed.
