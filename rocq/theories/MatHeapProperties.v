(** C91: Matrix objects in memory.  Histories of Matrix variables behave as if every variable held
    its own matrix, and what they leave allocated is known exactly. *)
From Verif Require Import Base MatModel MatSpec MatAnyModel MatHeapModel MatHeapSpec MatHeapProofs MatHeapOpProofs MatHeapArithProofs MatHeapMainProofs.
Local Open Scope Z_scope.

(** every history has the same outcome and the same results at both levels *)
Theorem C91_values : forall {A} (o : ops A) (f : Z -> A) ps,
  omap snd (mrun o f (World [] []) ps) = omap (fun r => snd (fst r)) (vrun o f [] ps).
Proof.
  intros A o f ps. pose proof (run_inv o f ps _ _ _ inv_start) as H. unfold omap.
  destruct (mrun o f (World [] []) ps) as [[w rs]| | |], (vrun o f [] ps) as [[[e rs'] k]| | |]; cbn in *; try tauto. destruct H as (-> & _). reflexivity.
Qed.
Print Assumptions C91_values.

(** the blocks allocated at the end are those of the variables in scope and the lost ones *)
Theorem C91_memory : forall {A} (o : ops A) (f : Z -> A) ps w rs, mrun o f (World [] []) ps = Ok (w, rs) ->
  exists e k, vrun o f [] ps = Ok (e, rs, k) /\ allocated (mem w) = held e + k.
Proof.
  intros A o f ps w rs E. pose proof (run_inv o f ps _ _ _ inv_start) as H. rewrite E in H.
  destruct (vrun o f [] ps) as [[[e rs'] k]| | |]; cbn in H; try tauto. destruct H as (-> & L & I & HL).
  exists e, k. split; [reflexivity|]. rewrite (inv_count f w e L I). lia.
Qed.
Print Assumptions C91_memory.

(** without products and powers nothing is left once every variable has ended *)
Theorem C91_released : forall {A} (o : ops A) (f : Z -> A) ps w rs, mrun o f (World [] []) ps = Ok (w, rs) ->
  (forall x, In x (vars w) -> x = None) -> (forall p, In p ps -> multiplies p = false) -> allocated (mem w) = 0.
Proof.
  intros A o f ps w rs E Hv Hp. pose proof (run_inv o f ps _ _ _ inv_start) as H. rewrite E in H.
  destruct (vrun o f [] ps) as [[[e rs'] k]| | |] eqn:Ev; cbn in H; try tauto. destruct H as (-> & L & I & HL).
  rewrite (inv_count f w e L I). apply vrun_no_loss in Ev; [|apply forallb_forall; intros p Hin; now rewrite (Hp p Hin)].
  destruct I as (Fs & Sl & _). enough (He : held e = 0) by lia. assert (K : forall c, In c e -> c = None).
  { intros c Hc. apply In_nth_error in Hc. destruct Hc as (n & En). specialize (Sl n). rewrite En in Sl.
    destruct (nth_error (vars w) n) as [v|] eqn:Evn; [|now cbn in Sl]. apply nth_error_In, Hv in Evn. subst v. destruct c; [now cbn in Sl|reflexivity]. }
  clear -K. induction e as [|c e IH]; [reflexivity|]. rewrite (K c (or_introl eq_refl)). cbn. apply IH. intros d Hd. apply K. now right.
Qed.
Print Assumptions C91_released.

(** every product leaves its object, its pointer array and its rows allocated for ever *)
Theorem C91_product_refuted : ~ forall ps (w : world (A := Z)) rs, mrun Iops (fun z => z) (World [] []) ps = Ok (w, rs) ->
  (forall x, In x (vars w) -> x = None) -> allocated (mem w) = 0.
Proof.
  intros H. set (ps := [MLists [[1; 2]; [3; 4]]; MMul 0 0; MEnd 0; MEnd 1] : list (mop (A := Z))).
  destruct (mrun Iops (fun z => z) (World [] []) ps) as [[w rs]| | |] eqn:E; vm_compute in E; try discriminate.
  specialize (H ps w rs ltac:(rewrite <- E; vm_compute; reflexivity)).
  assert (N : allocated (mem w) = 4) by (inversion E; reflexivity). rewrite N in H.
  enough (4 = 0) by discriminate. apply H. inversion E. intros x [<-|[<-|[]]]; reflexivity.
Qed.
Print Assumptions C91_product_refuted.

Example C91_example :
  let ps : list (mop (A := Z)) := [MLists [[1; 2]; [3; 4]]; MNew 2 2; MCopy 0; MSet 0 0 0 9; MGet 2 0 0; MGet 0 0 0; MAssign 1 0; MEq 1 0; MSet 1 1 1 5; MGet 0 1 1;
             MAdd 0 2; MGet 3 0 0; MAddTo 0 0; MGet 0 0 0; MMul 2 2; MGet 4 1 1; MAssign 2 2; MGet 2 1 0; MEnd 1; MEnd 0] in
  exists w, mrun Iops (fun z => z) (World [] []) ps =
    Ok (w, [RNone; RNone; RNone; RNone; RVal 1; RVal 9; RNone; RBool true; RNone; RVal 4; RNone; RVal 10; RNone; RVal 18; RNone; RVal 22; RNone; RVal 3; RNone; RNone])
    /\ allocated (mem w) = 3 * 3 + 4
    /\ mrun Iops (fun z => z) (World [] []) (ps ++ [MMulBy 2 3]) = UB
    /\ mrun Iops (fun z => z) (World [] []) (ps ++ [MGet 0 0 0]) = UB
    /\ mrun Iops (fun z => z) (World [] []) (ps ++ [MNew 3 2; MAdd 2 5]) = Err.
Proof. eexists. split; [vm_compute; reflexivity|]. repeat split; vm_compute; reflexivity. Qed.
