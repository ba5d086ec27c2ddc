(** * C59, continued: files written and read out of order *)
From Verif Require Import Base Base_Proofs PackBuf_Model Stream_Model Stream2_Model.

(** ** Specification *)
(** where each write goes, starting at place [p] *)
Definition moved (p : nat) (o : Z) : nat := if (Z.of_nat p + o <? 0)%Z then p else Z.to_nat (Z.of_nat p + o).
Fixpoint places (p : nat) (cs : list wop) : list (nat * list ascii) :=
  match cs with
  | [] => []
  | PTyped x :: cs' | PRaw x :: cs' => (p, x) :: places (p + length x) cs'
  | PReset :: cs' => places 0 cs'
  | PSeek o :: cs' => places (moved p o) cs'
  end.
(** where the next write would go *)
Fixpoint place (p : nat) (cs : list wop) : nat :=
  match cs with
  | [] => p
  | PTyped x :: cs' | PRaw x :: cs' => place (p + length x) cs'
  | PReset :: cs' => place 0 cs'
  | PSeek o :: cs' => place (moved p o) cs'
  end.
Definition covers (i : nat) (w : nat * list ascii) : Prop := fst w <= i < fst w + length (snd w).
(** [c] is what was written last at place [i] *)
Definition last_at (ws : list (nat * list ascii)) (i : nat) (c : ascii) : Prop :=
  exists ws1 p x ws2, ws = ws1 ++ (p, x) :: ws2 /\ p <= i /\ nth_error x (i - p) = Some c /\
    Forall (fun w => ~ covers i w) ws2.
(** calls that are allowed: basic types are not empty, the output side moves backwards only *)
Definition wfine (c : wop) : Prop := match c with PTyped x => x <> [] | PSeek o => (o <= 0)%Z | _ => True end.
(** only typed writes, moving within what was written *)
Fixpoint plain (p : nat) (cs : list wop) : Prop :=
  match cs with
  | [] => True
  | PTyped x :: cs' => plain (p + length x) cs'
  | PRaw _ :: _ => False
  | PReset :: cs' => plain 0 cs'
  | PSeek o :: cs' => (0 <= Z.of_nat p + o)%Z /\ plain (moved p o) cs'
  end.
(** what reads return and where they end *)
Fixpoint pieces (d : list ascii) (p : N) (cs : list rop) : option (list (list ascii) * N) :=
  match cs with
  | [] => Some ([], p)
  | GReset :: cs' => match pieces d 0 cs' with Some (r, q) => Some ([] :: r, q) | None => None end
  | GSeek o :: cs' =>
      if ((0 <=? Z.of_N p + o) && (Z.of_N p + o <? 2 ^ 64))%Z
      then match pieces d (Z.to_N (Z.of_N p + o)) cs' with Some (r, q) => Some ([] :: r, q) | None => None end
      else None
  | GTyped s :: cs' | GRaw s :: cs' =>
      if (p + s <=? len d)%N
      then match pieces d (p + s) cs' with
           | Some (r, q) => Some (firstn (N.to_nat s) (skipn (N.to_nat p) d) :: r, q)
           | None => None
           end
      else None
  end.
Definition rfine (c : rop) : Prop := match c with GTyped s => s <> 0%N | _ => True end.

(** ** Writing *)
Definition patch (d : list ascii) (p : nat) (x : list ascii) : list ascii := firstn p d ++ x ++ skipn (p + length x) d.
Lemma nth_patch d p x i : p <= length d -> nth_error (patch d p x) i =
  if ((p <=? i) && (i <? p + length x))%nat then nth_error x (i - p) else nth_error d i.
Proof.
  intros L. unfold patch. destruct (Nat.leb_spec p i) as [A|A]; cbn [andb].
  - rewrite nth_error_app2 by (rewrite firstn_length; lia). rewrite firstn_length, Nat.min_l by exact L.
    destruct (Nat.ltb_spec i (p + length x)) as [B|B].
    + now rewrite nth_error_app1 by lia.
    + rewrite nth_error_app2 by lia. rewrite <- (firstn_skipn (p + length x) d) at 2.
      destruct (Nat.le_gt_cases (p + length x) (length d)) as [C|C].
      * rewrite (nth_error_app2 (firstn _ d)) by (rewrite firstn_length; lia). rewrite firstn_length, Nat.min_l by exact C. f_equal. lia.
      * rewrite skipn_all2 by lia. rewrite app_nil_r, firstn_all2 by lia.
        transitivity (@None ascii); [now destruct (i - p - length x)|]. symmetry. apply nth_error_None. lia.
  - rewrite nth_error_app1 by (rewrite firstn_length; lia). clear - A L. revert p i A L. induction d as [|c d IH]; intros p i A L; [cbn in L; lia|].
    destruct p as [|p]; [lia|]. destruct i as [|i]; [reflexivity|]. cbn. apply IH; cbn in L; lia.
Qed.
Lemma patch_len d p x : p <= length d -> length (patch d p x) = Nat.max (length d) (p + length x).
Proof. intros L. unfold patch. rewrite !app_length, firstn_length, skipn_length. lia. Qed.
Lemma fwrite_patch x fb : f_mode fb = Writef -> (f_off fb <= len (f_data fb))%N ->
  fwrite x fb = (true, mk_fb Writef (patch (f_data fb) (N.to_nat (f_off fb)) x) (f_off fb + len x) (f_size fb) (f_pos fb)).
Proof.
  intros M L. unfold fwrite. rewrite M. f_equal. f_equal. unfold patch. f_equal; [|f_equal].
  - rewrite firstn_app. replace (_ - length (f_data fb)) with 0 by (unfold len in L; lia). cbn [firstn]. apply app_nil_r.
  - f_equal. unfold len. lia.
Qed.
Definition wstep (c : wop) (fb : file_buf) : file_buf :=
  match c with
  | PTyped x => mk_fb Writef (patch (f_data fb) (N.to_nat (f_off fb)) x) (f_off fb + len x) ((f_size fb + len x) mod W) (f_pos fb)
  | PRaw x => mk_fb Writef (patch (f_data fb) (N.to_nat (f_off fb)) x) (f_off fb + len x) (f_size fb) (f_pos fb)
  | PReset => mk_fb Writef (f_data fb) 0 0 (f_pos fb)
  | PSeek o => mk_fb Writef (f_data fb) (N.of_nat (moved (N.to_nat (f_off fb)) o)) (addoff (f_size fb) o) (f_pos fb)
  end.
Definition wok (fb : file_buf) : Prop := f_mode fb = Writef /\ (f_off fb <= len (f_data fb))%N.
Lemma patch_nil d p : p <= length d -> patch d p [] = d.
Proof. intros L. unfold patch. cbn [app length]. rewrite Nat.add_0_r. apply firstn_skipn. Qed.
Lemma puts_step c cs fb : wfine c -> wok fb -> f_puts (c :: cs) fb = f_puts cs (wstep c fb).
Proof.
  intros F (M & L). destruct c as [x|x| |o]; cbn [f_puts wstep]; unfold bind.
  - cbn [wfine] in F. destruct x as [|a x]; [congruence|]. unfold f_append. now rewrite fwrite_patch.
  - unfold f_packraw. destruct x as [|a x].
    + rewrite patch_nil by (unfold len in L; lia). change (len []) with 0%N. rewrite N.add_0_r. destruct fb; cbn in *. now subst.
    + now rewrite fwrite_patch.
  - unfold f_reseti, fseek. cbn [f_mode f_data f_size f_pos]. now rewrite M.
  - cbn [wfine] in F. unfold f_seeki. replace (o <=? 0)%Z with true by lia. unfold fseek_cur, moved. cbn [f_off].
    replace (Z.of_nat (N.to_nat (f_off fb))) with (Z.of_N (f_off fb)) by lia.
    destruct (Z.ltb_spec (Z.of_N (f_off fb) + o) 0) as [H|H].
    + rewrite N2Nat.id. now rewrite M.
    + unfold fseek. cbn [f_mode f_data f_size f_pos]. rewrite M. do 2 f_equal. lia.
Qed.
Lemma moved_le p o : (o <= 0)%Z -> moved p o <= p.
Proof. intros H. unfold moved. destruct (Z.ltb_spec (Z.of_nat p + o) 0); lia. Qed.
Lemma wok_step c fb : wfine c -> wok fb -> wok (wstep c fb).
Proof.
  intros F (M & L). destruct c as [x|x| |o]; split; cbn [wstep f_mode f_off f_data]; try reflexivity; unfold len in *.
  - rewrite patch_len by lia. lia.
  - rewrite patch_len by lia. lia.
  - lia.
  - cbn [wfine] in F. pose proof (moved_le (N.to_nat (f_off fb)) o F). lia.
Qed.
Lemma last_at_cons w ws i c : last_at (w :: ws) i c <->
  last_at ws i c \/ (covers i w /\ nth_error (snd w) (i - fst w) = Some c /\ Forall (fun w => ~ covers i w) ws).
Proof.
  split.
  - intros (ws1 & p & x & ws2 & E & A & B & C). destruct ws1 as [|w1 ws1]; cbn [app] in E; injection E as -> ->.
    + right. split; [|auto]. split; cbn [fst snd]; [lia|]. assert (i - p < length x) by (apply nth_error_Some; congruence). lia.
    + left. exists ws1, p, x, ws2. auto.
  - intros [(ws1 & p & x & ws2 & E & A & B & C)|(A & B & C)].
    + exists (w :: ws1), p, x, ws2. split; [now rewrite E|auto].
    + destruct w as [p x]. exists [], p, x, ws. unfold covers in A. cbn [fst snd] in *. split; [reflexivity|]. split; [lia|auto].
Qed.
Lemma puts_spec cs : forall fb, Forall wfine cs -> wok fb ->
  exists fw, f_puts cs fb = Ok tt fw /\ wok fw /\ f_off fw = N.of_nat (place (N.to_nat (f_off fb)) cs) /\
    (plain (N.to_nat (f_off fb)) cs -> f_size fb = (f_off fb mod W)%N -> f_size fw = (f_off fw mod W)%N) /\
    forall i c, nth_error (f_data fw) i = Some c <->
      last_at (places (N.to_nat (f_off fb)) cs) i c \/
      (nth_error (f_data fb) i = Some c /\ Forall (fun w => ~ covers i w) (places (N.to_nat (f_off fb)) cs)).
Proof.
  induction cs as [|c0 cs IH]; intros fb F K.
  - exists fb. cbn [f_puts places place plain]. split; [reflexivity|]. split; [exact K|]. split; [lia|]. split; [auto|].
    intros i c. split; [intros H; right; auto|]. intros [(ws1 & p & x & ws2 & E & _)|[H _]]; [destruct ws1; discriminate|exact H].
  - inversion F as [|? ? F1 F2]; subst. rewrite puts_step by assumption.
    destruct (IH (wstep c0 fb) F2 (wok_step c0 fb F1 K)) as (fw & E & Kw & O & P & D). exists fw.
    split; [exact E|]. split; [exact Kw|]. destruct K as (M & L).
    assert (WR : forall x : list ascii, N.to_nat (f_off fb + len x) = N.to_nat (f_off fb) + length x) by (intros; unfold len; lia).
    assert (LL : N.to_nat (f_off fb) <= length (f_data fb)) by (unfold len in L; lia).
    assert (Q : forall x ws i c, nth_error (patch (f_data fb) (N.to_nat (f_off fb)) x) i = Some c /\ Forall (fun w => ~ covers i w) ws <->
       (covers i (N.to_nat (f_off fb), x) /\ nth_error x (i - N.to_nat (f_off fb)) = Some c /\ Forall (fun w => ~ covers i w) ws) \/
       (nth_error (f_data fb) i = Some c /\ Forall (fun w => ~ covers i w) ((N.to_nat (f_off fb), x) :: ws))).
    { intros x ws i c. rewrite (nth_patch _ _ _ _ LL). unfold covers at 2. cbn [fst snd].
      destruct (Nat.leb_spec (N.to_nat (f_off fb)) i) as [A|A]; destruct (Nat.ltb_spec i (N.to_nat (f_off fb) + length x)) as [B|B]; cbn [andb].
      - split; [intros [X Y]; left; auto|]. intros [(_ & X & Y)|(_ & Y)]; [auto|]. inversion Y as [|? ? Y1 _]. exfalso. apply Y1. split; cbn [fst snd]; lia.
      - split; [|intros [(X & _)|(X & Y)]; [lia|]].
        + intros [X Y]. right. split; [exact X|]. constructor; [|exact Y]. intros [U V]. cbn [fst snd] in *. lia.
        + inversion Y. auto.
      - split; [|intros [(X & _)|(X & Y)]; [lia|]].
        + intros [X Y]. right. split; [exact X|]. constructor; [|exact Y]. intros [U V]. cbn [fst snd] in *. lia.
        + inversion Y. auto.
      - split; [|intros [(X & _)|(X & Y)]; [lia|]].
        + intros [X Y]. right. split; [exact X|]. constructor; [|exact Y]. intros [U V]. cbn [fst snd] in *. lia.
        + inversion Y. auto. }
    destruct c0 as [x|x| |o]; cbn [wstep f_off f_size f_data places place plain] in *.
    + rewrite WR in *. split; [exact O|]. split.
      * intros PL S0. apply P; [exact PL|]. rewrite S0. rewrite N.add_mod_idemp_l by (rewrite W_eq; lia). reflexivity.
      * intros i c. rewrite D, last_at_cons, Q. cbn [fst snd]. tauto.
    + rewrite WR in *. split; [exact O|]. split; [contradiction|].
      intros i c. rewrite D, last_at_cons, Q. cbn [fst snd]. tauto.
    + change (N.to_nat 0) with 0 in *. split; [exact O|]. split; [|exact D]. intros PL _. apply P; [exact PL|reflexivity].
    + rewrite Nat2N.id in *. split; [exact O|]. split; [|exact D]. intros (PO & PL) S0. apply P; [exact PL|].
      unfold addoff. rewrite S0. unfold moved. replace (Z.of_nat (N.to_nat (f_off fb)) + o <? 0)%Z with false by lia.
      replace (Z.of_nat (N.to_nat (f_off fb))) with (Z.of_N (f_off fb)) in * by lia.
      rewrite N2Z.inj_mod. rewrite Z.add_mod_idemp_l by (rewrite W_eq; lia).
      rewrite Z2N.inj_mod by (rewrite ?W_eq; lia). rewrite N2Z.id. f_equal. lia.
Qed.

(** ** C59 *)
(** Any history of writes, rewinds and backward moves: every byte of the file is the one
    written last at its place, and there are no others. *)
Theorem C59_last_write : forall cs, Forall wfine cs ->
  exists fw, f_puts cs f_create = Ok tt fw /\ f_off fw = N.of_nat (place 0 cs) /\
    forall i c, nth_error (f_data fw) i = Some c <-> last_at (places 0 cs) i c.
Proof.
  intros cs F. destruct (puts_spec cs f_create F) as (fw & E & _ & O & _ & D); [split; [reflexivity|cbn; lia]|].
  exists fw. split; [exact E|]. split; [exact O|]. intros i c. rewrite D. cbn [f_off f_create f_data].
  split; [|auto]. intros [H|[H _]]; [exact H|]. destruct i; discriminate.
Qed.
Example C59_last_write_ex : let cs := [PTyped (bs "abcd"); PRaw (bs "xyz"); PReset; PRaw (bs "Q"); PSeek (-5); PSeek (-1); PTyped (bs "R")] in
  Forall wfine cs /\ exists fw, f_puts cs f_create = Ok tt fw /\ f_data fw = bs "Rbcdxyz" /\ places 0 cs = [(0, bs "abcd"); (4, bs "xyz"); (0, bs "Q"); (0, bs "R")].
Proof.
  cbv zeta. split; [repeat constructor; cbn; try discriminate; lia|]. eexists. split; [vm_compute; reflexivity|]. split; vm_compute; reflexivity.
Qed.
Print Assumptions C59_last_write.
(** With typed writes only, and moves that stay inside the file, size() is the place of the
    next write. *)
Theorem C59_size_place : forall cs, Forall wfine cs -> plain 0 cs ->
  exists fw, f_puts cs f_create = Ok tt fw /\ f_size fw = (N.of_nat (place 0 cs) mod W)%N.
Proof.
  intros cs F P. destruct (puts_spec cs f_create F) as (fw & E & _ & O & S1 & _); [split; [reflexivity|cbn; lia]|].
  exists fw. split; [exact E|]. rewrite (S1 P eq_refl), O. reflexivity.
Qed.
Example C59_size_place_ex : let cs := [PTyped (bs "abcd"); PSeek (-3); PTyped (bs "R")] in
  Forall wfine cs /\ plain 0 cs /\ place 0 cs = 2.
Proof. cbv zeta. split; [repeat constructor; cbn; try discriminate; lia|]. split; [cbn; lia|reflexivity]. Qed.
Print Assumptions C59_size_place.
(** rewinding a file for writing leaves what was there: writing less afterwards leaves the
    old tail in the file, while size() is that of the new contents *)
Theorem C59_rewind_refuted : exists cs fw, cs = [PTyped (bs "abcd"); PReset; PTyped (bs "Q")] /\
  f_puts cs f_create = Ok tt fw /\ f_data fw = bs "Qbcd" /\ f_size fw = 1%N.
Proof. eexists. eexists. split; [reflexivity|]. split; [vm_compute; reflexivity|]. split; vm_compute; reflexivity. Qed.
Print Assumptions C59_rewind_refuted.
(** moving back beyond the beginning changes size() but not the place in the file *)
Theorem C59_seeki_refuted : exists fw, f_puts [PTyped (bs "a"); PSeek (-2)] f_create = Ok tt fw /\
  f_size fw = (2 ^ 64 - 1)%N /\ f_off fw = 1%N.
Proof. eexists. split; [vm_compute; reflexivity|]. split; vm_compute; reflexivity. Qed.
Print Assumptions C59_seeki_refuted.

(** ** Reading *)
Lemma gets_spec d (LD : (len d < W)%N) cs : forall fb r q, Forall rfine cs -> f_mode fb = Readf -> f_data fb = d -> f_off fb = f_pos fb ->
  (f_pos fb < W)%N -> pieces d (f_pos fb) cs = Some (r, q) ->
  exists fr, f_gets cs fb = Ok r fr /\ f_pos fr = q /\ f_off fr = q /\ f_size fr = f_size fb /\ f_data fr = d.
Proof.
  induction cs as [|c cs IH]; intros fb r q F M D O LP H; cbn [pieces] in H.
  - injection H as <- <-. exists fb. cbn [f_gets]. auto.
  - inversion F as [|? ? F1 F2]; subst. cbn [f_gets].
    assert (RD : forall s, (f_pos fb + s <= len (f_data fb))%N ->
      fread s fb = (Some (firstn (N.to_nat s) (skipn (N.to_nat (f_pos fb)) (f_data fb))), mk_fb Readf (f_data fb) (f_off fb + s) (f_size fb) (f_pos fb))).
    { intros s L. unfold fread. rewrite M, O. replace (_ <=? _)%N with true by lia. reflexivity. }
    assert (ST : forall s, (if (s =? 0)%N then f_unpackraw s fb else f_popoff s fb) = f_unpackraw s fb).
    { intros s. unfold f_unpackraw, f_popoff. now destruct (s =? 0)%N. }
    assert (UR : forall s, (f_pos fb + s <= len (f_data fb))%N -> f_unpackraw s fb =
       Ok (firstn (N.to_nat s) (skipn (N.to_nat (f_pos fb)) (f_data fb))) (mk_fb Readf (f_data fb) (f_off fb + s) (f_size fb) (f_pos fb + s))).
    { intros s L. unfold f_unpackraw. destruct (N.eqb_spec s 0) as [->|NZ].
      - cbn [N.to_nat firstn]. rewrite !N.add_0_r. destruct fb; cbn in *. now subst.
      - rewrite RD by exact L. cbn [f_mode f_data f_off f_size f_pos]. rewrite N.mod_small by lia. reflexivity. }
    destruct c as [s|s| |o].
    + destruct (N.leb_spec (f_pos fb + s) (len (f_data fb))) as [L|L]; [|discriminate].
      destruct (pieces (f_data fb) (f_pos fb + s) cs) as [[r1 q1]|] eqn:E; [|discriminate]. injection H as <- <-.
      assert (P0 : f_popoff s fb = f_unpackraw s fb) by (cbn [rfine] in F1; rewrite <- ST; now replace (s =? 0)%N with false by lia).
      unfold bind. rewrite P0, UR by exact L.
      edestruct (IH (mk_fb Readf (f_data fb) (f_off fb + s) (f_size fb) (f_pos fb + s))) as (fr & E1 & E2); [exact F2|reflexivity|reflexivity|cbn; lia|cbn; lia|exact E|].
      rewrite E1. exists fr. auto.
    + destruct (N.leb_spec (f_pos fb + s) (len (f_data fb))) as [L|L]; [|discriminate].
      destruct (pieces (f_data fb) (f_pos fb + s) cs) as [[r1 q1]|] eqn:E; [|discriminate]. injection H as <- <-.
      unfold bind. rewrite UR by exact L.
      edestruct (IH (mk_fb Readf (f_data fb) (f_off fb + s) (f_size fb) (f_pos fb + s))) as (fr & E1 & E2); [exact F2|reflexivity|reflexivity|cbn; lia|cbn; lia|exact E|].
      rewrite E1. exists fr. auto.
    + destruct (pieces (f_data fb) 0 cs) as [[r1 q1]|] eqn:E; [|discriminate]. injection H as <- <-.
      unfold bind, f_reseto, fseek. cbn [f_mode f_data f_size f_pos]. rewrite M.
      edestruct (IH (mk_fb Readf (f_data fb) 0 (f_size fb) 0)) as (fr & E1 & E2); [exact F2|reflexivity|reflexivity|reflexivity|exact W_pos|exact E|].
      rewrite E1. exists fr. auto.
    + destruct ((0 <=? Z.of_N (f_pos fb) + o) && (Z.of_N (f_pos fb) + o <? 2 ^ 64))%Z eqn:B; [|discriminate]. apply andb_true_iff in B. destruct B as [B1 B2].
      apply Z.leb_le in B1. apply Z.ltb_lt in B2.
      destruct (pieces (f_data fb) (Z.to_N (Z.of_N (f_pos fb) + o)) cs) as [[r1 q1]|] eqn:E; [|discriminate]. injection H as <- <-.
      assert (WZ : Z.of_N W = (2 ^ 64)%Z) by (rewrite W_eq; reflexivity).
      unfold bind, f_seeko, fseek_cur, fseek, addoff. cbn [f_mode f_data f_size f_pos f_off]. rewrite M, O.
      replace (_ <? 0)%Z with false by lia. rewrite Z.mod_small by lia.
      edestruct (IH (mk_fb Readf (f_data fb) (Z.to_N (Z.of_N (f_pos fb) + o)) (f_size fb) (Z.to_N (Z.of_N (f_pos fb) + o)))) as (fr & E1 & E2);
        [exact F2|reflexivity|reflexivity|reflexivity|cbn [f_pos]; lia|exact E|].
      rewrite E1. exists fr. auto.
Qed.
(** Any history of reads, rewinds and moves that reads inside the file only returns the bytes
    at the places given by the moves; pos() is the place in the file; size() stays 0. *)
Theorem C59_reads : forall d cs r q, Forall rfine cs -> (len d < W)%N -> pieces d 0 cs = Some (r, q) ->
  exists fr, f_gets cs (f_open d) = Ok r fr /\ f_pos fr = q /\ f_off fr = q /\ f_size fr = 0%N.
Proof.
  intros d cs r q F L H. destruct (gets_spec d L cs (f_open d) r q F eq_refl eq_refl eq_refl W_pos H) as (fr & A & B & C & D & _).
  exists fr. auto.
Qed.
Example C59_reads_ex : let cs := [GTyped 2; GSeek 3; GRaw 1; GSeek (-4); GRaw 2; GReset; GSeek 9]%N in
  Forall rfine cs /\ pieces (bs "abcdefg") 0 cs = Some ([bs "ab"; []; bs "f"; []; bs "cd"; []; []], 9%N).
Proof. cbv zeta. split; [repeat constructor; discriminate|reflexivity]. Qed.
Print Assumptions C59_reads.
(** a buffer that reads a file never says that there is more to read *)
Theorem C59_more_refuted : exists d, d <> [] /\ f_more (f_open d) = false.
Proof. exists (bs "abc"). split; [discriminate|reflexivity]. Qed.
Print Assumptions C59_more_refuted.
(** moving back beyond the beginning changes pos() but not the place in the file: the next
    read succeeds *)
Theorem C59_seeko_refuted : exists fr fr2, f_gets [GSeek (-1)] (f_open (bs "abc")) = Ok [[]] fr /\ f_pos fr = (2 ^ 64 - 1)%N /\
  f_unpackraw 2 fr = Ok (bs "ab") fr2 /\ f_pos fr2 = 1%N.
Proof. eexists. eexists. split; [vm_compute; reflexivity|]. split; [vm_compute; reflexivity|]. split; vm_compute; reflexivity. Qed.
Print Assumptions C59_seeko_refuted.
