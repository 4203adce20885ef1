(** C82: tables of invariants, from the file that is written to the terms that are evaluated. *)
From Verif Require Import Base Model.Tables Proofs.Readers.
Local Open Scope Z_scope.

(** *** Numbers that can be written *)
Definition int32 (x : Z) : Prop := - 2 ^ 31 <= x < 2 ^ 31.
Definition short {A} (l : list A) : Prop := Z.of_nat (length l) < 2 ^ 31.
Definition fits (t : table) : Prop :=
  let '(l, c, m) := t in
  short l /\ Forall (fun r => short r /\ Forall int32 r) l /\ short c /\ Forall (fun r => short r) c /\ short m /\ Forall (fun a => short a /\ Forall (fun r => short r /\ Forall int32 r) a) m.
(** Doubles *)
Definition words (t : table) : Prop := Forall (Forall (fun w => 0 <= w < 2 ^ 64)) (snd (fst t)).

Lemma le_length k u : length (le k u) = k.
Proof. revert u. induction k as [|k IH]; intros u; cbn; [reflexivity|]. now rewrite IH. Qed.
Lemma le_val_le k : forall u, 0 <= u < 256 ^ Z.of_nat k -> le_val (le k u) = u.
Proof.
  induction k as [|k IH]; intros u H; cbn [le le_val].
  - cbn in H. lia.
  - rewrite Nat2Z.inj_succ, Z.pow_succ_r in H by lia. rewrite IH.
    + pose proof (Z.div_mod u 256 ltac:(lia)). lia.
    + split; [apply Z.div_pos; lia|apply Z.div_lt_upper_bound; lia].
Qed.
Lemma signed_mod x : int32 x -> signed (x mod 2 ^ 32) = x.
Proof.
  unfold int32, signed. intros H. destruct (Z.ltb_spec x 0).
  - replace (x mod 2 ^ 32) with (x + 2 ^ 32) by (apply Z.mod_unique with (-1); lia). destruct (Z.ltb_spec (x + 2 ^ 32) (2 ^ 31)); lia.
  - rewrite Z.mod_small by lia. destruct (Z.ltb_spec x (2 ^ 31)); lia.
Qed.
Lemma write_int_Ok x bs : write_int x = Ok bs <-> int32 x /\ bs = le 4 (x mod 2 ^ 32).
Proof.
  unfold write_int, int32. destruct (Z.leb_spec (- 2 ^ 31) x), (Z.ltb_spec x (2 ^ 31)); cbn [andb]; split; try (intros E; discriminate); try (intros [A B]; lia).
  - intros [= <-]. split; [lia|reflexivity].
  - intros [_ ->]. reflexivity.
Qed.

(** *** What is written is read *)
Section Enc.
  Context {S : Type} (inj : list Z -> S).
  Definition enc {A} (wr : A -> res (list Z)) (rd : reader S A) (a : A) : Prop := forall bs, wr a = Ok bs -> forall tail, rd (inj (bs ++ tail)) = Ok (a, inj tail).
  Lemma enc_list {A} neg (int : reader S Z) (wr : A -> res (list Z)) (rd : reader S A) l : (forall z, enc write_int int z) -> Forall (enc wr rd) l -> enc (write_list wr) (rlist neg int rd) l.
  Proof.
    intros HI HL bs E tail. unfold write_list in E. destruct (write_int (Z.of_nat (length l))) as [n|] eqn:En; cbn [bind] in E; [|discriminate]. destruct (mapM wr l) as [bl|] eqn:Em; cbn [bind] in E; [|discriminate]. injection E as <-.
    unfold rlist. rewrite <- app_assoc. rewrite (HI _ n En). cbn [bind]. destruct (Z.ltb_spec (Z.of_nat (length l)) 0); [lia|]. rewrite Nat2Z.id. clear En n H.
    revert bl Em tail. induction HL as [|a l Ha HL IH]; intros bl Em tail; cbn in *.
    - injection Em as <-. reflexivity.
    - destruct (wr a) as [b|] eqn:Ea; cbn [bind] in Em; [|discriminate]. destruct (mapM wr l) as [bl'|]; cbn [bind] in Em; [|discriminate]. injection Em as <-. cbn [concat]. rewrite <- app_assoc, (Ha b Ea). cbn [bind]. rewrite (IH bl' eq_refl). reflexivity.
  Qed.
End Enc.
Lemma enc_all {S A} (inj : list Z -> S) (wr : A -> res (list Z)) rd l : (forall a, enc inj wr rd a) -> Forall (enc inj wr rd) l.
Proof. intros H. apply Forall_forall. intros a _. apply H. Qed.

Lemma firstn_app_l {A} k (a b : list A) : length a = k -> firstn k (a ++ b) = a.
Proof. intros <-. rewrite firstn_app, Nat.sub_diag, firstn_O, app_nil_r. apply firstn_all. Qed.
Lemma skipn_app_l {A} k (a b : list A) : length a = k -> skipn k (a ++ b) = b.
Proof. intros <-. rewrite skipn_app, Nat.sub_diag, skipn_all. reflexivity. Qed.
Lemma p_bytes_app k a b : length a = k -> p_bytes k (a ++ b) = Ok (a, b).
Proof. intros H. unfold p_bytes. rewrite app_length. destruct (Nat.leb_spec k (length a + length b)); [|lia]. now rewrite (firstn_app_l k a b H), (skipn_app_l k a b H). Qed.
Lemma c_bytes_app junk k a b n : length a = k -> c_bytes junk k (a ++ b, n) = (a, (b, n)).
Proof. intros H. unfold c_bytes. cbn [fst snd]. rewrite app_length. destruct (Nat.leb_spec k (length a + length b)); [|lia]. now rewrite (firstn_app_l k a b H), (skipn_app_l k a b H). Qed.
Lemma p_int_enc z : enc (fun s => s) write_int p_int z.
Proof.
  intros bs E tail. apply write_int_Ok in E. destruct E as [I ->]. unfold p_int. rewrite p_bytes_app by apply le_length. cbn [bind]. rewrite le_val_le, signed_mod by (exact I || (pose proof (Z.mod_pos_bound z (2 ^ 32)); lia)). reflexivity.
Qed.
Lemma p_word_enc w : 0 <= w < 2 ^ 64 -> enc (fun s => s) write_word p_word w.
Proof. intros H bs E tail. unfold write_word in E. assert (bs = le 8 w) by congruence. subst bs. unfold p_word. rewrite p_bytes_app by apply le_length. cbn [bind]. now rewrite le_val_le by exact H. Qed.
Lemma c_int_enc junk n z : enc (fun s => (s, n)) write_int (c_int junk) z.
Proof.
  intros bs E tail. apply write_int_Ok in E. destruct E as [I ->]. unfold c_int. rewrite c_bytes_app by apply le_length. rewrite le_val_le, signed_mod by (exact I || (pose proof (Z.mod_pos_bound z (2 ^ 32)); lia)). reflexivity.
Qed.
Lemma c_word_enc junk n w : 0 <= w < 2 ^ 64 -> enc (fun s => (s, n)) write_word (c_word junk) w.
Proof. intros H bs E tail. unfold write_word in E. assert (bs = le 8 w) by congruence. subst bs. unfold c_word. rewrite c_bytes_app by apply le_length. now rewrite le_val_le by exact H. Qed.

(** A table is written exactly if its integers and lengths are 32 bit. *)
Theorem C82_written t : (exists bs, save_all t = Ok bs) <-> fits t.
Proof.
  assert (WL : forall A (wr : A -> res (list Z)) l, (exists bs, write_list wr l = Ok bs) <-> short l /\ Forall (fun a => exists bs, wr a = Ok bs) l).
  { intros A wr l. unfold write_list. split.
    - intros [bs E]. destruct (write_int (Z.of_nat (length l))) as [n|] eqn:En; cbn [bind] in E; [|discriminate]. apply write_int_Ok in En. destruct (mapM wr l) as [bl|] eqn:Em; cbn [bind] in E; [|discriminate]. split; [apply (proj1 En)|]. clear - Em.
      revert bl Em. induction l as [|a l IH]; intros bl Em; constructor; cbn in Em; (destruct (wr a) as [b|] eqn:Ea; cbn [bind] in Em; [|discriminate]); [eauto|]. destruct (mapM wr l) as [bl'|]; [eauto|discriminate].
    - intros [H1 H2]. assert (I : int32 (Z.of_nat (length l))) by (unfold int32, short in *; lia). rewrite (proj2 (write_int_Ok _ _) (conj I eq_refl)). cbn [bind]. assert (M : exists bl, mapM wr l = Ok bl). { clear H1 I. induction H2 as [|a l [b Ea] F IH]; [exists []; reflexivity|]. destruct IH as [bl IH]. exists (b :: bl). cbn. now rewrite Ea, IH. }
      destruct M as [bl ->]. cbn [bind]. eauto. }
  assert (WI : forall x, (exists bs, write_int x = Ok bs) <-> int32 x). { intros x. split; [intros [bs E]; now apply write_int_Ok in E|]. intros H. exists (le 4 (x mod 2 ^ 32)). now apply write_int_Ok. }
  assert (FE : forall A (P Q : A -> Prop) l, (forall a, P a <-> Q a) -> (Forall P l <-> Forall Q l)). { intros A P Q l H. rewrite !Forall_forall. split; intros G a Ha; apply H; auto. }
  destruct t as [[l c] m].
  assert (W1 : forall r, (exists bs, write_list write_int r = Ok bs) <-> short r /\ Forall int32 r). { intros r. rewrite WL. now rewrite (FE _ _ int32 r WI). }
  assert (W2 : forall r, (exists bs, write_list write_word r = Ok bs) <-> short r). { intros r. rewrite WL. split; [tauto|]. intros H. split; [exact H|]. apply Forall_forall. intros w _. unfold write_word. eauto. }
  unfold fits. rewrite <- (FE _ _ _ l W1). rewrite <- (FE _ _ _ c W2). rewrite <- (FE _ (fun a => exists bs, write_list (write_list write_int) a = Ok bs) _ m) by (intros a; rewrite WL; now rewrite (FE _ _ _ a W1)).
  assert (X1 := WL _ (write_list write_int) l). assert (X2 := WL _ (write_list write_word) c). assert (X3 := WL _ (write_list (write_list write_int)) m).
  transitivity ((exists bs, write_list (write_list write_int) l = Ok bs) /\ (exists bs, write_list (write_list write_word) c = Ok bs) /\ (exists bs, write_list (write_list (write_list write_int)) m = Ok bs)); [|rewrite X1, X2, X3; tauto].
  unfold save_all. split.
  - intros [bs E]. cbn [bind] in E. change (write_int 3) with (Ok (le 4 3)) in E. change (write_int 1) with (Ok (le 4 1)) in E. change (write_int 2) with (Ok (le 4 2)) in E. cbn [bind] in E.
    destruct (write_list (write_list write_int) l) as [b1|]; cbn [bind] in E; [|discriminate]. destruct (write_list (write_list write_word) c) as [b2|]; cbn [bind] in E; [|discriminate]. destruct (write_list (write_list (write_list write_int)) m) as [b3|]; cbn [bind] in E; [|discriminate]. split; [|split]; eauto.
  - intros [[b1 ->] [[b2 ->] [b3 ->]]]. eexists. cbn. reflexivity.
Qed.
(** Both readers read what was written, whatever follows it. *)
Theorem C82_round t bs tail : words t -> save_all t = Ok bs -> load_all (bs ++ tail) = Ok t /\
  forall junk files order version, 1 <= order <= 6 -> 1 <= version <= 2 -> files version order = Some (bs ++ tail) -> parse junk files order version = Ok t.
Proof.
  destruct t as [[l c] m]. unfold words. cbn [fst snd]. intros W E. unfold save_all in E. destruct (write_int 3) as [n3|] eqn:E3; [|discriminate]. destruct (write_int 1) as [n1|] eqn:E1; [|discriminate]. destruct (write_int 2) as [n2|] eqn:E2; [|discriminate]. cbn [bind] in E.
  destruct (write_list (write_list write_int) l) as [b1|] eqn:F1; cbn [bind] in E; [|discriminate]. destruct (write_list (write_list write_word) c) as [b2|] eqn:F2; cbn [bind] in E; [|discriminate]. destruct (write_list (write_list (write_list write_int)) m) as [b3|] eqn:F3; cbn [bind] in E; [|discriminate].
  assert (EB : bs = magic ++ n3 ++ (n1 ++ b1) ++ (n2 ++ b2) ++ (n3 ++ b3)) by congruence. rewrite EB. clear E EB bs. rewrite <- !app_assoc. split.
  - unfold load_all. rewrite (firstn_app_l 4 magic) by reflexivity. destruct (list_eq_dec Z.eq_dec magic magic); [|contradiction]. cbn [negb]. rewrite (skipn_app_l 4 magic) by reflexivity.
    rewrite (p_int_enc 3 n3 E3). cbn [bind Z.eqb Pos.eqb py_assert]. rewrite (p_int_enc 1 n1 E1). cbn [bind Z.eqb Pos.eqb py_assert].
    rewrite (enc_list (fun s => s) None p_int (write_list write_int) (p_list p_int) l p_int_enc (enc_all _ _ _ _ (fun r => enc_list (fun s => s) None p_int write_int p_int r p_int_enc (enc_all _ _ _ _ p_int_enc))) b1 F1). cbn [bind].
    rewrite (p_int_enc 2 n2 E2). cbn [bind Z.eqb Pos.eqb py_assert].
    rewrite (enc_list (fun s => s) None p_int (write_list write_word) (p_list p_word) c p_int_enc) with (bs := b2); [|eapply Forall_impl; [|exact W]; intros r Hr; apply enc_list; [apply p_int_enc|]; eapply Forall_impl; [|exact Hr]; intros w Hw; now apply p_word_enc|exact F2]. cbn [bind].
    rewrite (p_int_enc 3 n3 E3). cbn [bind Z.eqb Pos.eqb py_assert].
    rewrite (enc_list (fun s => s) None p_int (write_list (write_list write_int)) (p_list (p_list p_int)) m p_int_enc) with (bs := b3); [reflexivity| |exact F3]. apply enc_all. intros a. apply enc_list; [apply p_int_enc|]. apply enc_all. intros r. apply enc_list; [apply p_int_enc|]. apply enc_all, p_int_enc.
  - intros junk files order version Ho Hv Hf. unfold parse, c_list. destruct (Z.ltb_spec order 1); [lia|]. destruct (Z.ltb_spec 6 order); [lia|]. destruct (Z.ltb_spec version 1); [lia|]. destruct (Z.ltb_spec 2 version); [lia|]. rewrite Hf.
    rewrite (c_bytes_app junk 4 magic) by reflexivity. assert (CI := c_int_enc junk 0).
    rewrite (CI 3 n3 E3). cbn [bind]. rewrite (CI 1 n1 E1). cbn [bind].
    rewrite (enc_list (fun s => (s, 0%nat)) (Some ValueError) (c_int junk) (write_list write_int) (rlist (Some ValueError) (c_int junk) (c_int junk)) l CI (enc_all _ _ _ _ (fun r => enc_list (fun s => (s, 0%nat)) (Some ValueError) (c_int junk) write_int (c_int junk) r CI (enc_all _ _ _ _ CI))) b1 F1). cbn [bind].
    rewrite (CI 2 n2 E2). cbn [bind].
    rewrite (enc_list (fun s => (s, 0%nat)) (Some ValueError) (c_int junk) (write_list write_word) (rlist (Some ValueError) (c_int junk) (c_word junk)) c CI) with (bs := b2); [|eapply Forall_impl; [|exact W]; intros r Hr; apply enc_list; [apply CI|]; eapply Forall_impl; [|exact Hr]; intros w Hw; now apply c_word_enc|exact F2]. cbn [bind].
    rewrite (CI 3 n3 E3). cbn [bind].
    rewrite (enc_list (fun s => (s, 0%nat)) (Some ValueError) (c_int junk) (write_list (write_list write_int)) (rlist (Some ValueError) (c_int junk) (rlist (Some ValueError) (c_int junk) (c_int junk))) m CI) with (bs := b3); [reflexivity| |exact F3]. apply enc_all. intros a. apply enc_list; [apply CI|]. apply enc_all. intros r. apply enc_list; [apply CI|]. apply enc_all, CI.
Qed.

(** *** What python reads, C++ reads, or it meets a negative length *)
Definition follows {A} (p : reader (list Z) A) (c : reader stream A) : Prop := forall s a s' n, p s = Ok (a, s') -> c (s, n) = Ok (a, (s', n)) \/ c (s, n) = Err ValueError.
Lemma follows_list junk {A} (p : reader (list Z) A) c : follows p c -> follows p_int (c_int junk) -> follows (p_list p) (c_list junk c).
Proof.
  intros H HI s a s' n E. unfold p_list, c_list, rlist in *. destruct (p_int s) as [[k s1]|] eqn:Ei; cbn [bind] in E; [|discriminate]. destruct (HI s k s1 n Ei) as [->| ->]; [|now right]. cbn [bind]. destruct (k <? 0); [now right|]. clear Ei.
  revert s1 a E. induction (Z.to_nat k) as [|q IH]; intros s1 a E; cbn in E.
  - injection E as <- <-. now left.
  - destruct (p s1) as [[x s2]|] eqn:Ex; cbn [bind] in E; [|discriminate]. destruct (times p q s2) as [[l s3]|] eqn:El; cbn [bind] in E; [|discriminate]. injection E as <- <-. cbn. destruct (H _ _ _ n Ex) as [->| ->]; [|now right]. cbn [bind]. destruct (IH s2 l El) as [->| ->]; [now left|now right].
Qed.
Lemma follows_int junk : follows p_int (c_int junk).
Proof.
  intros s a s' n E. unfold p_int, p_bytes, c_int, c_bytes in *. cbn [fst snd]. destruct (4 <=? length s)%nat; cbn [bind] in E; [|discriminate]. injection E as <- <-. now left.
Qed.
Lemma follows_word junk : follows p_word (c_word junk).
Proof.
  intros s a s' n E. unfold p_word, p_bytes, c_word, c_bytes in *. cbn [fst snd]. destruct (8 <=? length s)%nat; cbn [bind] in E; [|discriminate]. injection E as <- <-. now left.
Qed.
Theorem C82_agree junk files order version file t : 1 <= order <= 6 -> 1 <= version <= 2 -> files version order = Some file -> load_all file = Ok t ->
  parse junk files order version = Ok t \/ parse junk files order version = Err ValueError.
Proof.
  intros Ho Hv Hf E. unfold parse. destruct (Z.ltb_spec order 1); [lia|]. destruct (Z.ltb_spec 6 order); [lia|]. destruct (Z.ltb_spec version 1); [lia|]. destruct (Z.ltb_spec 2 version); [lia|]. rewrite Hf. unfold load_all in E.
  destruct (list_eq_dec Z.eq_dec (firstn 4 file) magic) as [EM|]; cbn [negb] in E; [|discriminate]. unfold c_bytes. cbn [fst snd]. assert (L4 : (4 <= length file)%nat). { pose proof (f_equal (@length Z) EM) as L. rewrite firstn_length in L. change (length magic) with 4%nat in L. lia. } destruct (Nat.leb_spec 4 (length file)); [|lia].
  set (s0 := skipn 4 file) in *.
  repeat match goal with
  | E : bind (p_int ?s) _ = Ok _ |- _ => let K := fresh in destruct (p_int s) as [[? ?]|] eqn:K; cbn [bind] in E; [|discriminate]; destruct (follows_int junk _ _ _ 0%nat K) as [->| ->]; [cbn [bind]|now right]; clear K
  | E : bind (py_assert ?b) _ = Ok _ |- _ => destruct b; cbn [bind py_assert] in E; [|discriminate]
  | E : bind (p_list (p_list p_int) ?s) _ = Ok _ |- _ => let K := fresh in destruct (p_list (p_list p_int) s) as [[? ?]|] eqn:K; cbn [bind] in E; [|discriminate]; destruct (follows_list junk _ _ (follows_list junk _ _ (follows_int junk) (follows_int junk)) (follows_int junk) _ _ _ 0%nat K) as [->| ->]; [cbn [bind]|now right]; clear K
  | E : bind (p_list (p_list p_word) ?s) _ = Ok _ |- _ => let K := fresh in destruct (p_list (p_list p_word) s) as [[? ?]|] eqn:K; cbn [bind] in E; [|discriminate]; destruct (follows_list junk _ _ (follows_list junk _ _ (follows_word junk) (follows_int junk)) (follows_int junk) _ _ _ 0%nat K) as [->| ->]; [cbn [bind]|now right]; clear K
  | E : bind (p_list (p_list (p_list p_int)) ?s) _ = Ok _ |- _ => let K := fresh in destruct (p_list (p_list (p_list p_int)) s) as [[? ?]|] eqn:K; cbn [bind] in E; [|discriminate]; destruct (follows_list junk _ _ (follows_list junk _ _ (follows_list junk _ _ (follows_int junk) (follows_int junk)) (follows_int junk)) (follows_int junk) _ _ _ 0%nat K) as [->| ->]; [cbn [bind]|now right]; clear K
  end. injection E as <-. now left.
Qed.
(** What cannot be written is refused with ValueError. *)
Theorem C82_unwritten t : ~ fits t -> save_all t = Err ValueError.
Proof.
  intros H. assert (D : (exists bs, save_all t = Ok bs) \/ save_all t = Err ValueError).
  { assert (WI : forall x, (exists b, write_int x = Ok b) \/ write_int x = Err ValueError) by (intros x; unfold write_int; destruct (_ && _); eauto).
    assert (WM : forall A (wr : A -> res (list Z)), (forall a, (exists b, wr a = Ok b) \/ wr a = Err ValueError) -> forall l, (exists b, write_list wr l = Ok b) \/ write_list wr l = Err ValueError).
    { intros A wr HW l. unfold write_list. destruct (WI (Z.of_nat (length l))) as [[n ->]| ->]; [|now right]. cbn [bind].
      assert (M : (exists b, mapM wr l = Ok b) \/ mapM wr l = Err ValueError).
      { clear - HW. induction l as [|a l IH]; [left; exists []; reflexivity|]. cbn [mapM]. destruct (HW a) as [[b ->]| ->]; [|now right]. cbn [bind]. destruct IH as [[c ->]| ->]; [left; eexists; reflexivity|now right]. }
      destruct M as [[b ->]| ->]; [left; eexists; reflexivity|now right]. }
    assert (WW : forall a, (exists b, write_word a = Ok b) \/ write_word a = Err ValueError) by (intros; left; eexists; reflexivity).
    destruct t as [[l c] m]. unfold save_all. change (write_int 3) with (Ok (le 4 3)). change (write_int 1) with (Ok (le 4 1)). change (write_int 2) with (Ok (le 4 2)). cbn [bind].
    destruct (WM _ _ (WM _ _ WI) l) as [[b1 ->]| ->]; [|now right]. cbn [bind]. destruct (WM _ _ (WM _ _ WW) c) as [[b2 ->]| ->]; [|now right]. cbn [bind].
    destruct (WM _ _ (WM _ _ (WM _ _ WI)) m) as [[b3 ->]| ->]; [left; eexists; reflexivity|now right]. }
  destruct D as [D|D]; [|exact D]. apply C82_written in D. contradiction.
Qed.
(** Python refuses other numbers of blocks, and blocks of other types, wherever they stand. *)
Theorem C82_kinds n rest : int32 n -> let w x := le 4 (x mod 2 ^ 32) in
  (n <> 3 -> load_all (magic ++ w n ++ rest) = Err AssertionError) /\
  (n <> 1 -> load_all (magic ++ w 3 ++ w n ++ rest) = Err AssertionError) /\
  (forall l b1, n <> 2 -> write_list (write_list write_int) l = Ok b1 -> load_all (magic ++ w 3 ++ w 1 ++ b1 ++ w n ++ rest) = Err AssertionError) /\
  (forall l b1 c b2, n <> 3 -> Forall (Forall (fun w => 0 <= w < 2 ^ 64)) c -> write_list (write_list write_int) l = Ok b1 -> write_list (write_list write_word) c = Ok b2 ->
     load_all (magic ++ w 3 ++ w 1 ++ b1 ++ w 2 ++ b2 ++ w n ++ rest) = Err AssertionError).
Proof.
  intros I w. assert (W : forall x, int32 x -> write_int x = Ok (w x)) by (intros x Hx; apply write_int_Ok; now split).
  assert (PI : forall x tail, int32 x -> p_int (w x ++ tail) = Ok (x, tail)) by (intros x tail Hx; exact (p_int_enc x (w x) (W x Hx) tail)).
  assert (I1 : int32 1) by (unfold int32; lia). assert (I2 : int32 2) by (unfold int32; lia). assert (I3 : int32 3) by (unfold int32; lia).
  assert (PL : forall l b1 tail, write_list (write_list write_int) l = Ok b1 -> p_list (p_list p_int) (b1 ++ tail) = Ok (l, tail)).
  { intros l b1 tail E. exact (enc_list (fun s => s) None p_int (write_list write_int) (p_list p_int) l p_int_enc (enc_all _ _ _ _ (fun r => enc_list (fun s => s) None p_int write_int p_int r p_int_enc (enc_all _ _ _ _ p_int_enc))) b1 E tail). }
  assert (HD : forall rest0, load_all (magic ++ rest0) = (do (n, s) <- p_int rest0; do _ <- py_assert (n =? 3);
    do (t1, s) <- p_int s; do _ <- py_assert (t1 =? 1); do (l, s) <- p_list (p_list p_int) s;
    do (t2, s) <- p_int s; do _ <- py_assert (t2 =? 2); do (c, s) <- p_list (p_list p_word) s;
    do (t3, s) <- p_int s; do _ <- py_assert (t3 =? 3); do (m, s) <- p_list (p_list (p_list p_int)) s; Ok (l, c, m))) by reflexivity.
  split; [|split; [|split]].
  - intros H. rewrite HD, PI by exact I. cbn [bind]. destruct (Z.eqb_spec n 3); [contradiction|reflexivity].
  - intros H. rewrite HD, PI by exact I3. cbn [bind Z.eqb Pos.eqb py_assert]. rewrite PI by exact I. cbn [bind]. destruct (Z.eqb_spec n 1); [contradiction|reflexivity].
  - intros l b1 H E. rewrite HD, PI by exact I3. cbn [bind Z.eqb Pos.eqb py_assert]. rewrite PI by exact I1. cbn [bind Z.eqb Pos.eqb py_assert]. rewrite (PL _ _ _ E). cbn [bind]. rewrite PI by exact I. cbn [bind]. destruct (Z.eqb_spec n 2); [contradiction|reflexivity].
  - intros l b1 c b2 H HC E E'. rewrite HD, PI by exact I3. cbn [bind Z.eqb Pos.eqb py_assert]. rewrite PI by exact I1. cbn [bind Z.eqb Pos.eqb py_assert]. rewrite (PL _ _ _ E). cbn [bind]. rewrite PI by exact I2. cbn [bind Z.eqb Pos.eqb py_assert].
    pose proof (fun F => enc_list (fun s => s) None p_int (write_list write_word) (p_list p_word) c p_int_enc F b2 E') as PC. unfold p_list at 1. rewrite PC.
    + cbn [bind]. rewrite PI by exact I. cbn [bind]. destruct (Z.eqb_spec n 3); [contradiction|reflexivity].
    + eapply Forall_impl; [|exact HC]. intros r Hr. apply enc_list; [apply p_int_enc|]. eapply Forall_impl; [|exact Hr]. intros x Hx. now apply p_word_enc.
Qed.
(** Orders and versions outside of the tables, and missing files, are refused. *)
Theorem C82_refused junk files order version : (~ (1 <= order <= 6 /\ 1 <= version <= 2) -> parse junk files order version = Err ValueError) /\
  (1 <= order <= 6 -> 1 <= version <= 2 -> files version order = None -> parse junk files order version = Err RuntimeError).
Proof.
  unfold parse. destruct (Z.ltb_spec order 1), (Z.ltb_spec 6 order), (Z.ltb_spec version 1), (Z.ltb_spec 2 version); split; try (intros; reflexivity); try (intros; lia). intros _ _ ->. reflexivity.
Qed.

(** *** The terms that are evaluated *)
Definition index_ok (l m : Z) : Prop := 0 <= l /\ - l <= m <= l.
(** l, m and their place are in one to one correspondence up to any largest l. *)
Theorem C82_index L i : 0 <= L -> (0 <= i < (L + 1) * (L + 1) <-> exists l m, index_ok l m /\ l <= L /\ lm_index l m = i).
Proof.
  intros HL. unfold lm_index, index_ok. split.
  - intros Hi. exists (Z.sqrt i), (i - Z.sqrt i * Z.sqrt i - Z.sqrt i). pose proof (Z.sqrt_spec i ltac:(lia)) as SQ. cbv zeta in SQ. rewrite <- Z.add_1_r in SQ. pose proof (Z.sqrt_nonneg i). assert (Z.sqrt i < L + 1) by (apply Z.sqrt_lt_square; lia). nia.
  - intros [l [m [[A B] [C <-]]]]. nia.
Qed.
Theorem C82_index_inj l m l' m' : index_ok l m -> index_ok l' m' -> lm_index l m = lm_index l' m' -> l = l' /\ m = m'.
Proof. unfold lm_index, index_ok. intros H H' E. assert (l = l') by nia. subst. split; [reflexivity|lia]. Qed.
(** A table of invariants of one order: rows in step, l in increasing order, m within l. *)
Record valid (order : nat) (t : table) : Prop := {
  v_c : length (snd (fst t)) = length (fst (fst t));
  v_m : length (snd t) = length (fst (fst t));
  v_l : Forall (fun l => length l = order /\ StronglySorted Z.le l) (fst (fst t));
  v_lm : Forall2 (fun l ms => Forall (fun m => Forall2 index_ok l m) ms) (fst (fst t)) (snd t) }.
Fixpoint indices (l m : list Z) : list Z := match l, m with x :: l', y :: m' => lm_index x y :: indices l' m' | _, _ => [] end.
(** The rows of a table with no l above maxl, in order. *)
Fixpoint rows_upto (maxl : Z) (ls : list (list Z)) (cs : list (list Z)) (ms : list (list (list Z))) : list invariant :=
  match ls, cs, ms with
  | l :: ls', c :: cs', m :: ms' => if forallb (fun x => x <=? maxl) l then (l, map (indices l) m, c) :: rows_upto maxl ls' cs' ms' else rows_upto maxl ls' cs' ms'
  | _, _, _ => []
  end.
Lemma sorted_last maxl l x r : rev l = x :: r -> StronglySorted Z.le l -> (maxl <? x) = negb (forallb (fun y => y <=? maxl) l).
Proof.
  intros E SS. assert (El : l = rev r ++ [x]) by (rewrite <- (rev_involutive l), E; reflexivity). assert (B : forall y, In y l -> y <= x).
  { intros y Hy. rewrite El in Hy, SS. apply in_app_iff in Hy. destruct Hy as [Hy|[<-|[]]]; [|lia]. clear - SS Hy. induction (rev r) as [|z q IH]; [easy|]. cbn in SS. inversion SS as [|? ? SS' Fz]; subst. destruct Hy as [<-|Hy]; [|auto]. rewrite Forall_forall in Fz. apply Fz, in_app_iff. right. now left. }
  destruct (Z.ltb_spec maxl x).
  - symmetry. apply negb_true_iff. destruct (forallb _ l) eqn:F; [|reflexivity]. rewrite forallb_forall in F. specialize (F x). rewrite El in F. assert (IX : In x (rev r ++ [x])) by (apply in_app_iff; right; now left). specialize (F IX). apply Z.leb_le in F. lia.
  - symmetry. apply negb_false_iff. apply forallb_forall. intros y Hy. apply Z.leb_le. specialize (B y Hy). lia.
Qed.
Lemma indices_get order : forall l m, length l = order -> length m = order -> mapM (fun k => do x <- get l k; do y <- get m k; Ok (lm_index x y)) (seq 0 order) = Ok (indices l m).
Proof.
  assert (G : forall n k (l m : list Z), length l = (k + n)%nat -> length m = (k + n)%nat -> mapM (fun k => do x <- get l k; do y <- get m k; Ok (lm_index x y)) (seq k n) = Ok (indices (skipn k l) (skipn k m))).
  { induction n as [|n IH]; intros k l m H1 H2; cbn [seq mapM].
    - rewrite Nat.add_0_r in *. now rewrite <- H1, skipn_all.
    - rewrite (get_Ok l k 0), (get_Ok m k 0) by lia. cbn [bind]. rewrite (IH (S k)) by lia. cbn [bind]. f_equal.
      assert (SK : forall q : list Z, (k < length q)%nat -> skipn k q = nth k q 0 :: skipn (S k) q). { clear. induction k as [|k IH]; intros [|a q] H; cbn in H; try lia; [reflexivity|]. cbn [skipn nth]. apply IH. lia. }
      rewrite (SK l), (SK m) by lia. reflexivity. }
  intros l m H1 H2. now rewrite (G order 0%nat l m H1 H2).
Qed.
Lemma Forall2_len {A B} (P : A -> B -> Prop) l m : Forall2 P l m -> length m = length l.
Proof. induction 1; cbn; congruence. Qed.
Lemma screen_rows order maxl t : (0 < order)%nat -> valid order t -> (do rows <- mapM (screen_row order maxl t) (seq 0 (length (fst (fst t)))); Ok (kept rows)) = Ok (rows_upto maxl (fst (fst t)) (snd (fst t)) (snd t)).
Proof.
  intros HO [Vc Vm Vl Vlm]. destruct t as [[ls cs] ms]. cbn [fst snd] in *.
  assert (G : forall pl pc pm ls cs ms, length pc = length pl -> length pm = length pl -> length cs = length ls -> length ms = length ls -> Forall (fun l => length l = order /\ StronglySorted Z.le l) ls -> Forall2 (fun l ms => Forall (fun m => Forall2 index_ok l m) ms) ls ms ->
    exists rows, mapM (screen_row order maxl (pl ++ ls, pc ++ cs, pm ++ ms)) (seq (length pl) (length ls)) = Ok rows /\ kept rows = rows_upto maxl ls cs ms).
  { clear - HO. intros pl pc pm ls. revert pl pc pm. induction ls as [|l ls IH]; intros pl pc pm cs ms L1 L2 L3 L4 Vl Vlm; [exists []; now split|]. destruct cs as [|c cs], ms as [|m ms]; try discriminate. inversion Vl as [|? ? [Ll Sl] Vl']; subst. inversion Vlm as [|? ? ? ? Hm Vlm']; subst.
    destruct (IH (pl ++ [l]) (pc ++ [c]) (pm ++ [m]) cs ms) as [rows [ER KR]]; [rewrite !app_length; cbn; lia|rewrite !app_length; cbn; lia|cbn in L3; lia|cbn in L4; lia|exact Vl'|exact Vlm'|]. rewrite app_length, Nat.add_1_r in ER. rewrite <- !app_assoc in ER. cbn [app] in ER.
    assert (SR : screen_row (length l) maxl (pl ++ l :: ls, pc ++ c :: cs, pm ++ m :: ms) (length pl) = Ok (if forallb (fun x => x <=? maxl) l then Some (l, map (indices l) m, c) else None)).
    { unfold screen_row. unfold get at 1. rewrite nth_error_app2, Nat.sub_diag by lia. cbn [nth_error bind]. destruct (rev l) as [|x r] eqn:Erv; [apply (f_equal (@length Z)) in Erv; rewrite rev_length in Erv; cbn in Erv; lia|]. cbn [get nth_error bind]. unfold get at 1. cbn [nth_error bind].
      rewrite (sorted_last maxl l x r Erv Sl). destruct (forallb _ l); cbn [negb]; [|reflexivity]. unfold get at 1. rewrite <- L2 at 1. rewrite nth_error_app2, Nat.sub_diag by lia. cbn [nth_error bind].
      rewrite (mapM_Ok _ (indices l)); [cbn [bind]; unfold get; rewrite <- L1, nth_error_app2, Nat.sub_diag by lia; reflexivity|]. intros q Hq. rewrite Forall_forall in Hm. specialize (Hm q Hq). apply indices_get; [reflexivity|now apply Forall2_len in Hm]. }
    cbn [length seq mapM]. rewrite SR. cbn [bind]. rewrite ER. cbn [bind]. eexists. split; [reflexivity|]. cbn [rows_upto]. unfold kept in *. cbn [flat_map]. rewrite KR. destruct (forallb _ l); reflexivity. }
  destruct (G [] [] [] ls cs ms eq_refl eq_refl Vc Vm Vl Vlm) as [rows [ER KR]]. cbn [app length] in ER. rewrite ER. cbn [bind]. now rewrite KR.
Qed.
(** With tables for all orders asked for, the terms are those of the rows with no l above the bound of the order (zero for order one). *)
Theorem C82_screening junk files N maxl version (ts : nat -> table) : (forall o, (1 <= o <= N)%nat -> parse junk files (Z.of_nat o) version = Ok (ts o) /\ valid o (ts o)) -> (N <= S (length maxl))%nat ->
  screening junk files (Z.of_nat N) maxl version = Ok (flat_map (fun o => rows_upto (if (o =? 1)%nat then 0 else nth (o - 2) maxl 0) (fst (fst (ts o))) (snd (fst (ts o))) (snd (ts o))) (seq 1 N)).
Proof.
  intros H HL. unfold screening. rewrite Nat2Z.id, (mapM_Ok _ (fun o => rows_upto (if (o =? 1)%nat then 0 else nth (o - 2) maxl 0) (fst (fst (ts o))) (snd (fst (ts o))) (snd (ts o)))).
  - cbn [bind]. now rewrite flat_map_concat_map.
  - intros o Ho. apply in_seq in Ho. destruct (H o ltac:(lia)) as [-> V]. cbn [bind]. assert (EM : (if (1 <? o)%nat then get maxl (o - 2) else Ok 0) = Ok (if (o =? 1)%nat then 0 else nth (o - 2) maxl 0)).
    { destruct (Nat.ltb_spec 1 o), (Nat.eqb_spec o 1); try lia; [|reflexivity]. apply get_Ok. lia. }
    rewrite EM. cbn [bind]. apply screen_rows; [lia|exact V].
Qed.
(** All places of terms are below the number of pairs l, m up to the bound. *)
Theorem C82_places order maxl t l lm c : valid order t -> 0 <= maxl -> In (l, lm, c) (rows_upto maxl (fst (fst t)) (snd (fst t)) (snd t)) -> Forall (Forall (fun i => 0 <= i < (maxl + 1) * (maxl + 1))) lm.
Proof.
  intros [Vc Vm Vl Vlm] HL. destruct t as [[ls cs] ms]. cbn [fst snd] in *. clear Vc Vm Vl. revert cs. induction Vlm as [|l0 m0 ls ms Hm Vlm IH]; intros cs H; [destruct cs; easy|]. destruct cs as [|c0 cs]; [easy|]. cbn [rows_upto] in H.
  destruct (forallb (fun x => x <=? maxl) l0) eqn:F; [|now apply (IH cs)]. destruct H as [[= <- <- <-]|H]; [|now apply (IH cs)]. apply Forall_map. eapply Forall_impl; [|exact Hm]. clear Hm. intros q Hq. rewrite forallb_forall in F.
  clear - Hq F HL. induction Hq as [|x y l1 m1 Hxy Hq IHq]; cbn [indices]; [constructor|]. constructor; [|apply IHq; intros z Hz; apply F; now right]. apply (C82_index maxl _ HL). exists x, y. split; [exact Hxy|]. split; [|reflexivity]. apply Z.leb_le, F. now left.
Qed.

(** *** What does not hold, and examples *)
Module Ex.
  (** Order two, l up to 1, with equal coefficients (bits of 1.0). *)
  Definition one : Z := 4607182418800017408.
  Definition t2 : table := ([[0; 0]; [1; 1]], [[one]; [one; one; one]], [[[0; 0]]; [[-1; 1]; [0; 0]; [1; -1]]]).
  Definition t1 : table := ([[0]], [[one]], [[[0]]]).
  Definition file (t : table) : list Z := match save_all t with Ok b => b | Err _ => [] end.
  Definition files (v o : Z) : option (list Z) := if (v =? 2) && (o =? 1) then Some (file t1) else if (v =? 2) && (o =? 2) then Some (file t2) else None.
End Ex.
Import Ex.
Lemma index_ok_dec l m : (0 <=? l) && (- l <=? m) && (m <=? l) = true -> index_ok l m.
Proof. unfold index_ok. rewrite !andb_true_iff, !Z.leb_le. lia. Qed.
Example C82_ex_valid : valid 1 t1 /\ valid 2 t2 /\ fits t2 /\ words t2.
Proof.
  split; [|split; [|split]].
  - constructor; cbn; try reflexivity; repeat constructor; apply index_ok_dec; reflexivity.
  - constructor; cbn; try reflexivity; repeat constructor; try lia; try (apply index_ok_dec; reflexivity).
  - apply C82_written. eexists. vm_compute. reflexivity.
  - unfold words, t2, one. cbn [fst snd]. repeat constructor; lia.
Qed.
Example C82_ex junk : load_all (file t2) = Ok t2 /\ parse junk files 2 2 = Ok t2 /\
  screening junk files 2 [1] 2 = Ok [([0], [[0]], [one]); ([0; 0], [[0; 0]], [one]); ([1; 1], [[1; 3]; [2; 2]; [3; 1]], [one; one; one])] /\
  screening junk files 2 [0] 2 = Ok [([0], [[0]], [one]); ([0; 0], [[0; 0]], [one])].
Proof. repeat split; vm_compute; reflexivity. Qed.
(** One block instead of three; a length that does not fit. *)
Example C82_ex_kinds : load_all (magic ++ le 4 1 ++ skipn 8 (file t2)) = Err AssertionError /\ save_all ([[2 ^ 31]], [], []) = Err ValueError /\ ~ fits ([[2 ^ 31]], [], []).
Proof. split; [vm_compute; reflexivity|]. split; [vm_compute; reflexivity|]. intros H. apply C82_written in H. destruct H as [bs H]. vm_compute in H. discriminate. Qed.
(** "Files of other kinds are refused": C++ looks neither at the first four bytes nor at the types of the blocks. *)
Theorem C82_magic_refuted junk : exists file, load_all file = Err ValueError /\ parse junk (fun _ _ => Some file) 2 2 = Ok t2.
Proof. exists (0 :: tl (file t2)). split; vm_compute; reflexivity. Qed.
(** "Cut files are refused": C++ fills up with what is in memory. *)
Theorem C82_cut_refuted : exists junk file t, load_all file = Err ValueError /\ parse junk (fun _ _ => Some file) 2 2 = Ok t /\ t <> t2 /\ file = removelast (Ex.file t2).
Proof.
  exists (fun _ => [1; 2; 3; 7; 4; 5; 6; 8]), (removelast (Ex.file t2)), ([[0; 0]; [1; 1]], [[one]; [one; one; one]], [[[0; 0]]; [[-1; 1]; [0; 0]; [1; 7 * 2 ^ 24 + 16777215]]]).
  split; [vm_compute; reflexivity|]. split; [vm_compute; reflexivity|]. split; [|reflexivity]. unfold t2. intros [=].
Qed.
(** "No l above the bound is kept": only the last l of a row is tested, so rows out of order pass. *)
Theorem C82_order_refuted junk : exists t, parse junk (fun _ _ => Some (file t)) 2 2 = Ok t /\ screen_row 2 0 t 0 = Ok (Some ([1; 0], [], [])).
Proof. exists ([[1; 0]], [[]], [[]]). split; vm_compute; reflexivity. Qed.
(** "What is there is used": one missing file of the orders asked for leaves nothing. *)
Theorem C82_missing_refuted junk : screening junk files 3 [4; 4] 2 = Err RuntimeError.
Proof. vm_compute. reflexivity. Qed.
Print Assumptions C82_written.
Print Assumptions C82_round.
Print Assumptions C82_agree.
Print Assumptions C82_unwritten.
Print Assumptions C82_kinds.
Print Assumptions C82_refused.
Print Assumptions C82_index.
Print Assumptions C82_index_inj.
Print Assumptions C82_screening.
Print Assumptions C82_places.
Print Assumptions C82_magic_refuted.
Print Assumptions C82_cut_refuted.
Print Assumptions C82_order_refuted.
Print Assumptions C82_missing_refuted.
