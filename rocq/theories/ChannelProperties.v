(** ChannelProperties: C64, channel routing. *)
From Coq Require Import ZArith List Arith Lia Bool.
From Verif Require Import ChannelModel ChannelSpec ChannelProofs.
Import ListNotations.

(** C64. After any history of calls, as long as no destination refuses: a
    message sent on a channel (by either way of putting it) reaches every
    place exactly as often as there are routes to it from this channel, or
    default routes to it when the channel has none; and nothing but this
    message is delivered. *)
Theorem C64_routing : forall (M : Type) (l : list (call M)) c (m : M) s r a k,
  run sw_new willing l = (s, r, a) ->
  (k = Send c m \/ k = SendModifiable c m) ->
  exists s' ds, step s willing k = (s', ds, willing)
    /\ (forall d o, copies_due (rev l) c d o (copies ds d o))
    /\ Forall (fun x => d_what x = m) ds.
Proof.
  intros M l c m s r a k E Hk.
  assert (A0 : agrees sw_new (@nil (call M))) by (split; [|split]; reflexivity).
  destruct (run_agrees l sw_new [] s r a A0 E) as [A _]. rewrite app_nil_r in A.
  assert (P : exists s', put s c m willing
     = (s', map (fun x : route => mkd (fst x) (snd x) m) (it_reset s c), willing)).
  { unfold put. rewrite (proj2 (proj2 A)), send_willing. eauto. }
  assert (HF : Forall (fun x => d_what x = m) (map (fun x : route => mkd (fst x) (snd x) m) (it_reset s c))).
  { apply Forall_forall. intros x Hx. apply in_map_iff in Hx as (y & <- & _). reflexivity. }
  assert (HC : forall d o, copies_due (rev l) c d o
                 (copies (map (fun x : route => mkd (fst x) (snd x) m) (it_reset s c)) d o)).
  { intros. rewrite copies_map. apply it_reset_copies. exact A. }
  destruct P as (s' & P). destruct Hk as [-> | ->]; cbn [step].
  - exists s'. eauto.
  - unfold put_modifiable. destruct (it_reset s c) as [|x [|y t]] eqn:EI.
    + exists s'. eauto.
    + exists s. eexists. split; [reflexivity|]. auto.
    + exists s'. eauto.
Qed.

(** When destinations refuse and the caller sends the same message again
    until it is through, the accepted deliveries are the same as without any
    refusal, in the same order; this takes at most one call more than there
    are refusals, and no route changes. *)
Theorem C64_retry : forall (M : Type) (l : list (call M)) c (m : M) a s r,
  run sw_new willing l = (s, r, willing) ->
  exists s' ds s1,
    insist (S (length (filter (fun x => x) a))) s c m a = Some (s', ds)
    /\ step s willing (Send c m) = (s1, ds, willing)
    /\ s_map s' = s_map s /\ s_def s' = s_def s /\ s_blocked s' = false.
Proof.
  intros M l c m a s r E.
  assert (A0 : agrees sw_new (@nil (call M))) by (split; [|split]; reflexivity).
  destruct (run_agrees l sw_new [] s r willing A0 E) as [A _]. rewrite app_nil_r in A.
  destruct (insist_spec (S (length (filter (fun x => x) a))) s c m a (Nat.lt_succ_diag_r _))
    as (s' & EI & Q).
  cbn [step]. unfold put. rewrite (proj2 (proj2 A)) in EI |- *.
  do 3 eexists. split; [exact EI|]. rewrite send_willing. split; [reflexivity|exact Q].
Qed.

(** A history with routes, a removal, a duplicate and default routes of both
    kinds. *)
Example C64_example :
  let A := [65]%Z in let B := [66]%Z in let C := [67]%Z in
  let h := [AddRoute A 1 B; AddRoute B 2 C; AddRoute A 3 A; AddRoute A 1 B;
            AddDefault 7 None; AddDefault 8 (Some C); RemoveRoute A 3 A; RemoveRoute A 3 B] in
  snd (fst (run sw_new willing (h ++ [Send A 5; Send C 6; SendModifiable B 9])))
  = repeat [] 8 ++ [[mkd 1 B 5; mkd 1 B 5]; [mkd 7 C 6; mkd 8 C 6]; [mkd 2 C 9]]
  /\ copies_due (rev h) A 1 B 2 /\ active (rev h) A 1 B = 2 /\ active (rev h) A 3 A = 0.
Proof.
  cbn zeta. split; [vm_compute; reflexivity|]. split; [|split; vm_compute; reflexivity].
  split; intros H.
  - vm_compute. reflexivity.
  - exfalso. apply H. exists 1, [66]%Z. vm_compute. discriminate.
Qed.

(** The property does not hold when a different message follows a refusal: the
    switch remembers where it stopped, but not for which channel.  Here the
    second message, on channel B, goes to the destination of channel A, and
    its own destination gets nothing. *)
Theorem C64_after_refusal_refuted :
  exists (l : list (call nat)) (a : list bool) c m (ds : list (delivery nat)) s a1 s1 r,
    run sw_new a l = (s, r, a1)
    /\ step s willing (Send c m) = (s1, ds, willing)
    /\ exists d o, ~ copies_due (rev l) c d o (copies ds d o).
Proof.
  exists [AddRoute [65]%Z 1 []; AddRoute [66]%Z 2 []; Send [65]%Z 10], [true], [66]%Z, 20.
  do 5 eexists. split; [vm_compute; reflexivity|]. split; [vm_compute; reflexivity|].
  exists 2, []. intros [H _].
  assert (R : routed (rev [AddRoute [65]%Z 1 []; AddRoute [66]%Z 2 []; @Send nat [65]%Z 10]) [66]%Z).
  { exists 2, []. vm_compute. discriminate. }
  specialize (H R). vm_compute in H. discriminate.
Qed.

Print Assumptions C64_routing.
Print Assumptions C64_retry.
Print Assumptions C64_after_refusal_refuted.
