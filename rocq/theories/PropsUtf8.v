(** C44: the bytes that are counted are UTF-8's. *)
From Coq Require Import Lia.
From Verif Require Export Utf8.

(** RFC 3629, section 3: the number of bytes is the least possible; the lead byte tells it, and carries the
    high bits; each further byte carries six bits. *)
Inductive encodes : char -> list N -> Prop :=
| en_1 a : (a < 128)%N -> encodes a [a]
| en_2 a b : (a < 32)%N -> (b < 64)%N -> (128 <= 64 * a + b)%N -> encodes (64 * a + b)%N [192 + a; 128 + b]%N
| en_3 a b c : (a < 16)%N -> (b < 64)%N -> (c < 64)%N -> (2048 <= 64 * (64 * a + b) + c)%N ->
    encodes (64 * (64 * a + b) + c)%N [224 + a; 128 + b; 128 + c]%N
| en_4 a b c d : (a < 8)%N -> (b < 64)%N -> (c < 64)%N -> (d < 64)%N -> (65536 <= 64 * (64 * (64 * a + b) + c) + d)%N ->
    encodes (64 * (64 * (64 * a + b) + c) + d)%N [240 + a; 128 + b; 128 + c; 128 + d]%N.
Lemma div64 q r : (r < 64)%N -> ((64 * q + r) / 64 = q /\ (64 * q + r) mod 64 = r)%N.
Proof.
  intros R. pose proof (N.div_mod' (64 * q + r) 64) as E. pose proof (N.mod_lt (64 * q + r) 64 ltac:(lia)) as L.
  set (x := ((64 * q + r) / 64)%N) in *. set (y := ((64 * q + r) mod 64)%N) in *. clearbody x y. lia.
Qed.
Lemma split64 c : exists q r, (c = 64 * q + r /\ r < 64 /\ c / 64 = q /\ c mod 64 = r)%N.
Proof. exists (c / 64)%N, (c mod 64)%N. pose proof (N.div_mod' c 64). pose proof (N.mod_lt c 64 ltac:(lia)). auto. Qed.
Lemma pow64 c : (c / 4096 = c / 64 / 64 /\ c / 262144 = c / 64 / 64 / 64)%N.
Proof. rewrite !N.div_div by lia. split; reflexivity. Qed.
Theorem C44_utf8 : forall c bs, valid_char c -> (utf8_char c = bs <-> encodes c bs).
Proof.
  assert (F : forall c, valid_char c -> encodes c (utf8_char c)).
  { intros c V. unfold valid_char in V. unfold utf8_char. destruct (pow64 c) as [P1 P2]. rewrite P1, P2.
    destruct (split64 c) as (q & r & E & R & D & M). rewrite D, M. destruct (split64 q) as (q2 & r2 & E2 & R2 & D2 & M2). rewrite D2, M2. destruct (split64 q2) as (q3 & r3 & E3 & R3 & D3 & M3). rewrite D3, M3. clear D M D2 M2 D3 M3 P1 P2.
    destruct (N.leb_spec c 127); [constructor; lia|]. destruct (N.leb_spec c 2047); [rewrite E; constructor; lia|]. destruct (N.leb_spec c 65535).
    - rewrite E, E2. constructor; lia.
    - rewrite E, E2, E3. constructor; lia. }
  intros c bs V. split; [intros <-; now apply F|]. intros G. specialize (F c V).
  assert (DET : forall a x, encodes a x -> forall b y, encodes b y -> a = b -> x = y).
  { clear. intros a x A b y B. destruct A; destruct B; intros E; try (exfalso; lia); [now subst|f_equal; [|f_equal]; lia|f_equal; [|f_equal; [|f_equal]]; lia|f_equal; [|f_equal; [|f_equal; [|f_equal]]]; lia]. }
  exact (DET _ _ F _ _ G eq_refl).
Qed.
Print Assumptions C44_utf8.
(** The bytes determine the text. *)
Lemma encodes_lead c d bs ds x y : encodes c bs -> encodes d ds -> bs ++ x = ds ++ y -> c = d /\ x = y.
Proof.
  intros A B. destruct A; destruct B; cbn [app]; intros E;
    pose proof (f_equal (fun l => nth 0 l 0%N) E) as E0; pose proof (f_equal (fun l => nth 1 l 0%N) E) as E1; pose proof (f_equal (fun l => nth 2 l 0%N) E) as E2; pose proof (f_equal (fun l => nth 3 l 0%N) E) as E3;
    cbn [nth] in E0, E1, E2, E3; try (exfalso; lia).
  - split; [lia|exact (f_equal (skipn 1) E)].
  - split; [lia|exact (f_equal (skipn 2) E)].
  - split; [lia|exact (f_equal (skipn 3) E)].
  - split; [lia|exact (f_equal (skipn 4) E)].
Qed.
Theorem C44_decodable : forall s t, Forall valid_char s -> Forall valid_char t -> utf8 s = utf8 t -> s = t.
Proof.
  intros s t S. revert t. induction S as [|c s V _ IH]; intros t T E.
  - destruct T as [|d t W T]; [reflexivity|]. exfalso. cbn in E. pose proof (proj1 (C44_utf8 d _ W) eq_refl) as X. destruct X; discriminate E.
  - destruct T as [|d t W T]; [exfalso; cbn in E; pose proof (proj1 (C44_utf8 c _ V) eq_refl) as X; destruct X; discriminate E|].
    cbn [utf8 flat_map] in E. destruct (encodes_lead c d _ _ _ _ (proj1 (C44_utf8 c _ V) eq_refl) (proj1 (C44_utf8 d _ W) eq_refl) E) as [-> E']. f_equal. now apply IH.
Qed.
Print Assumptions C44_decodable.
Example C44_utf8_example : utf8 [97; 233; 8364; 128512]%N = [97; 195; 169; 226; 130; 172; 240; 159; 152; 128]%N.
Proof. reflexivity. Qed.
