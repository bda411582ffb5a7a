(** Theorems about references and iterators into a Vector (C127). *)
From Verif Require Import Base ContModel ContProofs RefModel RefSpec RefProofs.
Local Open Scope Z_scope.

(** ** whenever a program is defined, a reference is a position *)
Theorem C127_meaning : forall {A} g c (l : list A) os v rs, Forall int_index os ->
  rrun g (fresh l c) os = Ok (v, rs) -> exists ps, plainly l [] os = Some (items v, ps, rs).
Proof.
  intros A g c l os v rs I E. destruct (run_plain g os (fresh l c) v rs [] I (fresh_known l c) E) as (ps & P & _). now exists ps.
Qed.
Print Assumptions C127_meaning.

(** ** so how the buffer grows can be seen only as undefined behaviour *)
Theorem C127_library : forall {A} g1 g2 c1 c2 (l : list A) os v1 v2 rs1 rs2, Forall int_index os ->
  rrun g1 (fresh l c1) os = Ok (v1, rs1) -> rrun g2 (fresh l c2) os = Ok (v2, rs2) -> items v1 = items v2 /\ rs1 = rs2.
Proof.
  intros A g1 g2 c1 c2 l os v1 v2 rs1 rs2 I E1 E2. destruct (C127_meaning _ _ _ _ _ _ I E1) as (p1 & P1). destruct (C127_meaning _ _ _ _ _ _ I E2) as (p2 & P2).
  rewrite P1 in P2. injection P2 as -> _ ->. auto.
Qed.
Print Assumptions C127_library.

(** ** a buffer that never has room to spare is the worst case *)
Theorem C127_worst : forall {A} (l : list A) os v rs, rrun (fun _ _ => O) (fresh l 0) os = Ok (v, rs) ->
  forall g c, exists w, rrun g (fresh l c) os = Ok (w, rs) /\ items w = items v.
Proof.
  intros A l os v rs E g c. destruct (run_below g os _ _ _ _ (fresh_below l c) E) as (w & R & B & _). exists w. auto.
Qed.
Print Assumptions C127_worst.

(** ** a program that uses no reference is never undefined *)
Theorem C127_defined : forall {A} g c (l : list A) os, Forall int_index os -> forallb unused os = true ->
  match rrun g (fresh l c) os with Ok _ | Err => True | _ => False end.
Proof. intros A g c l os I U. now apply run_defined. Qed.
Print Assumptions C127_defined.

(** ** exactly when a reference can still be used, whatever the library does: no call since it was
    taken removed or moved its element, or made the Vector larger than it had been before *)
Theorem C127_exact : forall {A} (l : list A) before take after l1 ps rs1 i v rs,
  Forall int_index (before ++ take :: after) ->
  plainly l [] before = Some (l1, ps, rs1) -> refers l1 take = Some i ->
  rrun (fun _ _ => O) (fresh l 0) (before ++ take :: after) = Ok (v, rs) ->
  let used := (before ++ take :: after) ++ [Read (length ps)] in
  if calm (peak l [] before) i l1 (ps ++ [i]) after
  then exists x, nth_error (items v) i = Some x /\
       forall g c, exists w, rrun g (fresh l c) used = Ok (w, rs ++ [Some x]) /\ items w = items v
  else rrun (fun _ _ => O) (fresh l 0) used = UB.
Proof.
  intros A l before take after l1 ps rs1 i v rs I P R E used. destruct (fate l before take after v rs l1 ps rs1 i I P R E) as [F G].
  assert (X : rrun (fun _ _ => O) (fresh l 0) used = (' (w, r) <- rstep (fun _ _ => O) v (Read (length ps)) ;; Ok (w, rs ++ [r]))).
  { unfold used. rewrite run_app, E. cbn [bind rrun]. destruct (rstep _ v (Read (length ps))) as [[w r]| | |]; reflexivity. }
  cbn [rstep] in X. destruct (calm (peak l [] before) i l1 (ps ++ [i]) after).
  - pose proof (look_spec v (length ps) G) as L. destruct (look_valid v (length ps) i G F) as [x V]. rewrite V in X, L. rewrite F in L.
    destruct (nth_error (items v) i) as [y|] eqn:N; [|discriminate]. injection L as ->. exists y. split; [reflexivity|]. cbn [bind] in X. intros g c. exact (C127_worst l used v (rs ++ [Some y]) X g c).
  - rewrite look_spec, F in X by exact G. exact X.
Qed.
Print Assumptions C127_exact.

(** ** an element of the Vector itself may be pushed or inserted, even if the buffer is replaced *)
Theorem C127_alias : forall {A} g c (l : list A) os h v rs x, Forall int_index os ->
  rrun g (fresh l c) (os ++ [Read h]) = Ok (v, rs ++ [Some x]) ->
  (exists w, rrun g (fresh l c) (os ++ [Push (Elem h)]) = Ok (w, rs ++ [None]) /\ items w = items v ++ [x]) /\
  forall a b, items v = a ++ b -> in_int32 (Z.of_nat (length a)) = true ->
    exists w, rrun g (fresh l c) (os ++ [Insert (Z.of_nat (length a)) (Elem h)]) = Ok (w, rs ++ [None]) /\ items w = a ++ x :: b.
Proof.
  intros A g c l os h v rs x I E. rewrite run_app in E. destruct (rrun g (fresh l c) os) as [[w r]| | |] eqn:R; try discriminate. cbn [bind rrun] in E.
  destruct (rstep g w (Read h)) as [[w1 y]| | |] eqn:S; try discriminate. cbn [bind] in E. injection E as -> E. apply app_inj_tail in E as [-> ->]. cbn [rstep] in S.
  destruct (look w h) as [y| | |] eqn:L; try discriminate. cbn [bind] in S. injection S as -> ->. rename v into w. split.
  - rewrite run_app, R. cbn [bind rrun rstep value_of]. rewrite L. cbn [bind]. eexists. split; reflexivity.
  - intros a b Ew B. rewrite run_app, R. cbn [bind rrun rstep value_of]. rewrite L. cbn [bind]. pose proof (insert_spec (items w) _ x B) as X.
    destruct (seq_insert (items w) (Z.of_nat (length a)) x) as [l'| | |]; [| | |].
    + destruct X as (a' & b' & Ew' & La & ->). cbn [bind]. eexists. split; [reflexivity|]. cbn [items]. apply Nat2Z.inj in La. rewrite Ew in Ew'.
      assert (Q : a = a' /\ b = b'); [|now destruct Q as [-> ->]]. clear - Ew' La. revert a' La Ew'. induction a as [|z a IH]; intros [|z' a'] La Ew'; try discriminate; cbn in *; [auto|].
      injection Ew' as -> Ew'. destruct (IH a' (eq_add_S _ _ La) Ew') as [-> ->]. auto.
    + exfalso. apply X. rewrite Ew, app_length. lia.
    + contradiction.
    + contradiction.
Qed.
Print Assumptions C127_alias.

(** ** refuted: a reference to an element survives a push *)
Theorem C127_survives_refuted :
  ~ (forall g c (l : list Z) i x, (i < length l)%nat -> in_int32 (Z.of_nat i) = true ->
     exists w y, rrun g (fresh l c) [Ref (Z.of_nat i); Push (Val x); Read 0] = Ok (w, [None; None; Some y])).
Proof. intros H. destruct (H (fun _ _ => O) O [7] O 8) as (w & y & E); [cbn; lia|reflexivity|]. vm_compute in E. discriminate. Qed.
Print Assumptions C127_survives_refuted.
(** ** refuted: what works with one library works with every one *)
Theorem C127_portable_refuted :
  ~ (forall g1 g2 c (l : list Z) os v rs, Forall int_index os -> rrun g1 (fresh l c) os = Ok (v, rs) -> exists w, rrun g2 (fresh l c) os = Ok (w, rs)).
Proof.
  intros H. destruct (H (fun _ n => n) (fun _ _ => O) O [] [Push (Val 1); RefFirst; Push (Val 2); Read 0] (RVec [1; 2] 2 [Some O]) [None; None; None; Some 1]) as [w E].
  - repeat constructor.
  - reflexivity.
  - vm_compute in E. discriminate.
Qed.
Print Assumptions C127_portable_refuted.

Example C127_example :
  (* room is left by the pop, so the reference to the first element outlives the push *)
  (let before := [Pop] in let after := [Push (Elem 0); Write 0 (Val 40); Erase 1] in
   plainly [10; 20; 30] [] before = Some ([10; 20], [], [Some 30]) /\ peak [10; 20; 30] [] before = 3%nat /\
   calm 3 0 [10; 20] [O] after = true /\
   omap (fun p => (items (fst p), snd p)) (rrun (fun _ _ => O) (fresh [10; 20; 30] 0) ((before ++ RefFirst :: after) ++ [Read 0]))
     = Ok ([40; 10], [Some 30; None; None; None; None; Some 40])) /\
  (* without the pop it is invalid unless the library kept room to spare *)
  calm 3 0 [10; 20; 30] [O] [Push (Val 5)] = false /\
  rrun (fun _ _ => O) (fresh [10; 20; 30] 0) [RefFirst; Push (Val 5); Read 0] = UB /\
  omap snd (rrun (fun _ _ => O) (fresh [10; 20; 30] 1) [RefFirst; Push (Val 5); Read 0]) = Ok [None; None; Some 10] /\
  (* erasing in front of it, popping it, clearing *)
  rrun (fun _ n => n) (fresh [10; 20; 30] 9) [Ref 1; Erase 0; Read 0] = UB /\
  rrun (fun _ n => n) (fresh [10; 20; 30] 9) [RefLast; Pop; Read 0] = UB /\
  omap snd (rrun (fun _ n => n) (fresh [10; 20; 30] 9) [Ref 1; Erase 2; Insert 2 (Elem 0); Read 0]) = Ok [None; None; None; Some 20] /\
  (* pushing the first element of a full vector *)
  omap (fun p => items (fst p)) (rrun (fun _ _ => O) (fresh [10; 20] 0) [RefFirst; Push (Elem 0)]) = Ok [10; 20; 10] /\
  rrun (fun _ _ => O) (fresh [10; 20] 0) [Ref 2] = Err /\
  Forall (@int_index Z) [Ref 1; Erase 2; Insert 2 (Elem 0)] /\ forallb unused [Push (Val 5); Ref 1; Pop] = true.
Proof. repeat split; repeat constructor. Qed.
