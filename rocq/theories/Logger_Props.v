(** C62: what the logger prints. *)
From Coq Require Import String Ascii.
From Coq Require Import List Arith ZArith Bool Lia.
From Verif Require Import Base StringView_Model StringView_Spec StringView_Proofs Logger_Model Logger_Spec Logger_Proofs.
Import ListNotations.
Local Open Scope list_scope.
Local Open Scope Z_scope.

(** A message whose kind is enabled prints exactly one line: the color, the time stamp, the kind, the texts of the arguments
    in order and the color reset; to stderr if and only if it is an error, after which the program ends if and only if
    exit_on_error is set. That line is then the last message. A message whose kind is not enabled does nothing. This is for
    messages shorter than the buffer, in the first 100 hours of a program, with or without assertions. *)
Theorem C62_printed checks s ns k args buf st ts : length buf = buffer_size ->
  (timestamped s = true -> 0 <= ns < 360000 * 1000000000) -> Forall printable args -> stamped s ns st -> Forall2 shown args ts ->
  (length (message s k st ts) < 256)%nat ->
  if number k <=? level s then
    exists buf', printMessage checks s ns (number k) args buf =
       Ret (buf', Some (mkEffect (match k with Error => Stderr | _ => Stdout end) (message s k st ts)
             (match k with Error => exit_on_error s | _ => false end))) /\
     length buf' = buffer_size /\ getLastMessage buf' = Ret (message s k st ts)
  else printMessage checks s ns (number k) args buf = Ret (buf, None).
Proof. exact (printed checks s ns k args buf st ts). Qed.
Print Assumptions C62_printed.
(** There is one such line: the time stamp and the texts exist and are unique. *)
Theorem C62_line_unique s ns args : (timestamped s = true -> 0 <= ns < 360000 * 1000000000) -> Forall printable args ->
  (exists st, stamped s ns st /\ forall st', stamped s ns st' -> st' = st) /\
  (exists ts, Forall2 shown args ts /\ forall ts', Forall2 shown args ts' -> ts' = ts).
Proof.
  intros T P. destruct (texts_exist s ns args T P) as [[st St] [ts Sh]]. split.
  - exists st. split; auto. intros st' St'. rewrite (stamped_unique s ns st), (stamped_unique s ns st'); auto.
  - exists ts. split; auto. intros ts' Sh'. rewrite (shown_all args ts), (shown_all args ts'); auto.
Qed.
Print Assumptions C62_line_unique.
(** The four functions print messages of the four kinds. *)
Theorem C62_kinds checks s ns : error checks s ns = printMessage checks s ns (number Error) /\
  warn checks s ns = printMessage checks s ns (number Warn) /\ info checks s ns = printMessage checks s ns (number Info) /\
  debug checks s ns = printMessage checks s ns (number Debug).
Proof. repeat split. Qed.
Print Assumptions C62_kinds.
(** With assertions, a message that is too long stops the program before anything outside of the buffer is written, if the
    logger is not colorized and no argument is a bool. *)
Theorem C62_too_long_refused s ns k args buf st ts : length buf = buffer_size ->
  (timestamped s = true -> 0 <= ns < 360000 * 1000000000) -> Forall printable args -> colorized s = false ->
  Forall (fun a => forall b, a <> ABool b) args ->
  stamped s ns st -> Forall2 shown args ts -> number k <= level s ->
  (256 <= length (message s k st ts))%nat -> printMessage true s ns (number k) args buf = Fail.
Proof.
  intros L T P C B. apply refused; auto. eapply Forall_impl; [|exact B]. intros a H. destruct a; cbn; auto. now apply (H b).
Qed.
Print Assumptions C62_too_long_refused.
(** Without them, every text longer than the buffer is written beyond its end. *)
Theorem C62_release_refuted s ns k text buf : length buf = buffer_size ->
  (timestamped s = true -> 0 <= ns < 2147483648 * 1000000) -> number k <= level s ->
  (256 < length text)%nat -> printMessage false s ns (number k) [AStr text] buf = Ub.
Proof. exact (overrun s ns k text buf). Qed.
Print Assumptions C62_release_refuted.
(** With assertions, a bool near the end of the buffer, or the color reset, is written beyond its end before the assertion. *)
Theorem C62_bool_refuted : exists s args buf, colorized s = false /\ length buf = buffer_size /\ error true s 0 args buf = Ub.
Proof.
  exists (mkSettings 3 true false true), [AStr (repeat 97 230); ABool true], (repeat 0 256).
  repeat split; vm_compute; reflexivity.
Qed.
Print Assumptions C62_bool_refuted.
Theorem C62_reset_refuted : exists s args buf, Forall (fun a => forall b, a <> ABool b) args /\ length buf = buffer_size /\ error true s 0 args buf = Ub.
Proof.
  exists (mkSettings 3 true true true), [AStr (repeat 97 224)], (repeat 0 256). split; [constructor; [discriminate|constructor]|].
  repeat split; vm_compute; reflexivity.
Qed.
Print Assumptions C62_reset_refuted.
(** After 100 hours the time stamp is no longer one; nor is it when the system clock has been set back. *)
Theorem C62_hours_refuted : exists s ns args buf buf' l, ns = 360000 * 1000000000 /\
  info true s ns args buf = Ret (buf', Some (mkEffect Stdout l false)) /\ l = codes "[:0:00:00.000] INFO - " /\
  forall ms st r, stamp ms st -> l <> st ++ r.
Proof.
  exists (mkSettings 3 true false true), (360000 * 1000000000), [], (repeat 0 256). eexists. eexists.
  split; [reflexivity|]. split; [vm_compute; reflexivity|]. split; [reflexivity|].
  intros ms st r (h & m & s & f & H & M & S1 & F & -> & L1 & _ & _ & _ & D1 & _) E.
  destruct h as [|a [|b [|? ?]]]; try discriminate. apply dec_digits in D1. destruct D1 as (_ & D1 & _).
  inversion D1 as [|? ? Da _]; subst. apply isdigit_range in Da.
  apply (f_equal (fun l => nth 1 l 0)) in E. cbn in E. subst a. lia.
Qed.
Print Assumptions C62_hours_refuted.
Theorem C62_clock_refuted : exists s ns args buf buf' l, ns = - 1000000000 /\
  info true s ns args buf = Ret (buf', Some (mkEffect Stdout l false)) /\ l = codes "[00:00:0/.000] INFO - ".
Proof.
  exists (mkSettings 3 true false true), (- 1000000000), [], (repeat 0 256). eexists. eexists.
  split; [reflexivity|]. split; vm_compute; reflexivity.
Qed.
Print Assumptions C62_clock_refuted.
(** After 2^31 milliseconds (almost 25 days) the conversion of the milliseconds to Int is undefined. *)
Theorem C62_days_refuted checks s ns k args buf : length buf = buffer_size -> timestamped s = true -> number k <= level s ->
  2147483648 * 1000000 <= ns -> printMessage checks s ns (number k) args buf = Ub.
Proof. exact (long_run checks s ns k args buf). Qed.
Print Assumptions C62_days_refuted.

(** ** Cases that meet the hypotheses *)
Definition ex_s := mkSettings 3 true true true.
Definition ex_args := [AStr (codes "cell "); AInt (-1207); AChar 44; ABool true; AFloat (codes " 0.500000")].
Definition ex_ts := [codes "cell "; codes "-1207"; codes ","; codes "true"; codes " 0.500000"].
Example C62_ex_stamp : stamped ex_s 3723045999999 (codes "[01:02:03.045] ").
Proof.
  unfold stamped. cbn [timestamped ex_s].
  exists (codes "01"), (codes "02"), (codes "03"), (codes "045"), 1, 2, 3, 45. repeat split; try lia.
  - apply (dec_more [48] 0 1); [apply (dec_one 0)|]; lia.
  - apply (dec_more [48] 0 2); [apply (dec_one 0)|]; lia.
  - apply (dec_more [48] 0 3); [apply (dec_one 0)|]; lia.
  - apply (dec_more [48; 52] 4 5); [|lia]. apply (dec_more [48] 0 4); [apply (dec_one 0)|]; lia.
Qed.
Example C62_ex_shown : Forall printable ex_args /\ Forall2 shown ex_args ex_ts.
Proof.
  assert (P : Forall printable ex_args).
  { unfold ex_args. repeat apply Forall_cons; try apply Forall_nil; cbn; unfold in_64; try lia; intuition discriminate. }
  split; [exact P|]. destruct (texts_exist (mkSettings 0 false false false) 0 ex_args) as [_ [ts Hs]]; [discriminate|exact P|].
  apply shown_all in Hs as E; [|exact P]. subst ts. exact Hs.
Qed.
Example C62_ex : exists buf', warn true ex_s 3723045999999 ex_args (repeat 0 256) =
  Ret (buf', Some (mkEffect Stdout (ESC :: codes "[1;33m[01:02:03.045] WARN - cell -1207,true 0.500000" ++ ESC :: codes "[0m") false)).
Proof. eexists. vm_compute. reflexivity. Qed.
Example C62_ex_len : (length (message ex_s Warn (codes "[01:02:03.045] ") ex_ts) < 256)%nat.
Proof. vm_compute. lia. Qed.
Example C62_ex_long : let s := mkSettings 4 false false true in let args := [AStr (repeat 97 200); AFloat (repeat 57 60)] in
  Forall printable args /\ Forall (fun a => forall b, a <> ABool b) args /\ Forall2 shown args [repeat 97 200; repeat 57 60] /\
  stamped s 0 [] /\ (256 <= length (message s Debug [] [repeat 97%Z 200; repeat 57%Z 60]))%nat /\
  printMessage true s 0 (number Debug) args (repeat 0 256) = Fail.
Proof.
  cbv zeta. split; [|split; [|split; [|split; [|split]]]].
  - repeat apply Forall_cons; try apply Forall_nil; cbn [printable]; intros X; apply repeat_spec in X; discriminate.
  - repeat constructor; discriminate.
  - repeat constructor.
  - reflexivity.
  - vm_compute. lia.
  - vm_compute. reflexivity.
Qed.
