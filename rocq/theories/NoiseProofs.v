(** * Noise models: lemmas *)
From Verif Require Import Prelude ConvModel ConvProofs NoiseModel.

Lemma map2_seq_ext {A B} (f g : nat -> A -> B) : forall (l : list A) k, (forall i a, In a l -> f i a = g i a) ->
  map2 f (seq k (length l)) l = map2 g (seq k (length l)) l.
Proof. induction l as [|a l IH]; intros k H; simpl; auto. rewrite H by (simpl; auto). f_equal. apply IH. intros; apply H; simpl; auto. Qed.
Lemma mapi_ext {A B} (f g : nat -> A -> B) (l : list A) : (forall i a, In a l -> f i a = g i a) -> mapi f l = mapi g l.
Proof. apply map2_seq_ext. Qed.
Lemma mapi_map {A B} (f : A -> B) (l : list A) : mapi (fun _ a => f a) l = map f l.
Proof. unfold mapi. generalize 0%nat. induction l as [|a l IH]; intros k; simpl; auto. f_equal. apply IH. Qed.
Lemma mapi_id {A} (f : nat -> A -> A) (l : list A) : (forall i a, In a l -> f i a = a) -> mapi f l = l.
Proof. intros H. rewrite (mapi_ext f (fun _ a => a)) by auto. rewrite mapi_map. apply map_id. Qed.
Lemma mapi_length {A B} (f : nat -> A -> B) (l : list A) : length (mapi f l) = length l.
Proof. unfold mapi. rewrite map2_length, seq_length. apply Nat.min_id. Qed.
Lemma map2_seq_nth {A B} (f : nat -> A -> B) : forall (l : list A) k i da db, (i < length l)%nat ->
  nth i (map2 f (seq k (length l)) l) db = f (k + i)%nat (nth i l da).
Proof.
  induction l as [|a l IH]; intros k i da db H; simpl in H; [lia|]. destruct i; simpl.
  - now rewrite Nat.add_0_r.
  - rewrite (IH (S k) i da) by lia. f_equal. lia.
Qed.
Lemma mapi_nth {A B} (f : nat -> A -> B) (l : list A) i da db : (i < length l)%nat -> nth i (mapi f l) db = f i (nth i l da).
Proof. intros. unfold mapi. now rewrite (map2_seq_nth f l 0 i da). Qed.
Lemma map2_seq_in {A B} (f : nat -> A -> B) : forall (l : list A) k b, In b (map2 f (seq k (length l)) l) -> exists i a, In a l /\ b = f i a.
Proof.
  induction l as [|a l IH]; intros k b H; simpl in H; [easy|]. destruct H as [<- | H]; [exists k, a; simpl; auto|].
  destruct (IH _ _ H) as (i & x & Hx & E). exists i, x. simpl; auto.
Qed.
Lemma mapi_in {A B} (f : nat -> A -> B) (l : list A) b : In b (mapi f l) -> exists i a, In a l /\ b = f i a.
Proof. apply map2_seq_in. Qed.
Lemma mapiM_ok {A B} (f : nat -> A -> res B) (g : nat -> A -> B) : forall l k, (forall i a, In a l -> f i a = Ok (g i a)) ->
  mapiM_from f k l = Ok (map2 g (seq k (length l)) l).
Proof.
  induction l as [|a l IH]; intros k H; simpl; auto. rewrite H by (simpl; auto). simpl. rewrite IH by (intros; apply H; simpl; auto). reflexivity.
Qed.
Lemma mapiM_id {A} (f : nat -> A -> res A) l : (forall i a, In a l -> f i a = Ok a) -> mapiM f l = Ok l.
Proof.
  intros H. unfold mapiM. rewrite (mapiM_ok f (fun _ a => a)) by auto. f_equal. change (mapi (fun _ a => a) l = l). now apply mapi_id.
Qed.
Lemma mapiM_eq {A B} (f g : nat -> A -> res B) : forall l k, (forall i a, In a l -> f i a = g i a) -> mapiM_from f k l = mapiM_from g k l.
Proof. induction l as [|a l IH]; intros k H; simpl; auto. rewrite H by (simpl; auto). destruct (g k a); simpl; auto. rewrite IH by (intros; apply H; simpl; auto). reflexivity. Qed.

(** power law *)
Lemma Rpower_pos x y : 0 < Rpower x y.
Proof. apply exp_pos. Qed.
Lemma Rpower_decr x y nu : 0 < x -> x <= y -> 0 <= nu -> Rpower y (- nu) <= Rpower x (- nu).
Proof.
  intros Hx Hy Hn. unfold Rpower. destruct (Req_dec x y) as [->|Ne]; [lra|].
  assert (L : ln x < ln y) by (apply ln_increasing; lra).
  assert (H : - nu * ln y <= - nu * ln x) by nra.
  destruct H as [H|H]; [left; now apply exp_increasing|rewrite H; lra].
Qed.
Lemma Rpower_1_l nu : Rpower 1 nu = 1.
Proof. unfold Rpower. rewrite ln_1, Rmult_0_r. apply exp_0. Qed.
Lemma pl_drifted_val m t nu g : 0 < pl_t0 m -> 0 <= t -> pl_drifted m t nu g = g * Rpower (1 + t / pl_t0 m) (- nu).
Proof.
  intros H0 Ht. unfold pl_drifted. rcase.
  - do 2 f_equal. field. lra.
  - replace t with 0 by lra. replace (1 + 0 / pl_t0 m) with 1 by (field; lra). rewrite Rpower_1_l. ring.
Qed.
Lemma pl_drift1_noiseless m t z nu g : 0 < pl_t0 m -> 0 <= t -> pl_rns m = 0 -> 0 <= g ->
  pl_drift1 m t z nu g = g * Rpower (1 + t / pl_t0 m) (- nu).
Proof.
  intros H0 Ht Hr Hg. unfold pl_drift1. rewrite (proj2 (Rltb_true _ _)) by lra. rewrite Hr, pl_drifted_val by auto.
  pose proof (Rpower_pos (1 + t / pl_t0 m) (- nu)) as P.
  assert (0 <= g * Rpower (1 + t / pl_t0 m) (- nu)) by (apply Rmult_le_pos; lra).
  rewrite Rmult_0_r, !Rmult_0_l, Rplus_0_r. apply Rmax_left. lra.
Qed.
Lemma pl_undef_ok m t : 0 < pl_tread m -> pl_tread m <= pl_t0 m -> 0 <= t -> pl_undef m t = false.
Proof.
  intros H1 H2 H3. unfold pl_undef. rewrite (proj2 (Rleb_false _ _)) by lra. rewrite (proj2 (Rleb_false (pl_tread m) 0)) by lra.
  rewrite (proj2 (Rltb_false (t + pl_t0 m) (pl_tread m))) by lra. now rewrite andb_false_r.
Qed.
