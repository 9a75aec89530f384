(** C68, C69: property theorems about what the exploration policies cost and about
    off-policy evaluation (exact arithmetic). *)
From Coq Require Import List NArith ZArith Bool Lia Reals Lra.
From Verif Require Import Base FloatOps FloatR Model_Hash Model_Features Model_Weights Model_Types Model_Explore Model_Coin Model_Stack
  Model_Factory Model_Metrics Spec_Explore Spec_Metrics Spec_Decide Spec_OffPolicy Proof_Decide Proof_OffPolicy.
Import ListNotations.
Open Scope R_scope.

(** C68.  Enforcing a minimum probability eps costs at most eps times the range of the
    costs, whatever the distribution and the costs are. *)
Theorem C68_floor_cost : forall (dbg : bool) (eps : R) consider (els : list (N * R)) (f : N -> R) lo hi,
  0 <= eps <= 999 / 1000 -> nonneg els -> total els = 1 -> within lo hi f els ->
  exists r, @enforce_min_prob RF dbg eps consider els = Ok r /\ nonneg r /\ total r = 1 /\
    expect f r <= expect f els + eps * (hi - lo).
Proof. exact floor_cost. Qed.
Print Assumptions C68_floor_cost.

(** C68.  Epsilon-greedy: against any action, at most epsilon times the range of the
    costs and twice the error of the scores. *)
Theorem C68_greedy : forall (eps delta lo hi : R) (f : N -> R) (scores : list (N * R)) a c,
  0 <= eps <= 1 -> within lo hi f scores -> accurate delta f scores -> In (a, c) scores ->
  exists r : list (N * R), @greedy_probs RF eps scores = Ok r /\
    expect f r <= f a + eps * (hi - lo) + (1 - eps) * (2 * delta).
Proof. exact greedy_decides. Qed.
Print Assumptions C68_greedy.

(** C68.  Softmax: (ln n) / lambda in place of the price of the best action's doubt. *)
Theorem C68_softmax : forall (dbg : bool) (ueps la delta lo hi : R) (f : N -> R) (scores : list (N * R)) a c,
  0 <= ueps <= 999 / 1000 -> 0 < la -> within lo hi f scores -> accurate delta f scores -> In (a, c) scores ->
  exists r : list (N * R), @softmax_probs RF dbg ueps la scores = Ok r /\
    expect f r <= f a + ueps * (hi - lo) + ln (INR (length scores)) / la + 2 * delta.
Proof. exact softmax_decides. Qed.
Print Assumptions C68_softmax.

(** C68.  SquareCB: against any action and for any true costs, however wrong the scores
    are, the expected regret is at most 2(n-1)/gamma plus gamma/4 times the expected
    squared error of the scores under the policy itself.  (p is the policy before the
    uniform floor is enforced.) *)
Theorem C68_squarecb : forall (dbg : bool) (ueps gamma lo hi : R) (f : N -> R) (scores : list (N * R)) a c,
  0 <= ueps <= 999 / 1000 -> 0 < gamma -> NoDup (map fst scores) -> within lo hi f scores -> In (a, c) scores ->
  exists p r : list (N * R), @squarecb_probs RF dbg 0 gamma scores = Ok p /\ @squarecb_probs RF dbg ueps gamma scores = Ok r /\
    expect f r <= f a + ueps * (hi - lo) + 2 * (INR (length scores) - 1) / gamma + gamma / 4 * score_error f scores p.
Proof. exact squarecb_decides. Qed.
Print Assumptions C68_squarecb.

(** C68.  The same for a prediction of a whole stack with SquareCB on top, at any point
    of its life, in terms of the scores that its child predicts. *)
Theorem C68_squarecb_stack : forall dbg n w (ueps gs ge : R) counter (ch : red RF n) fts p fts',
  0 <= ueps <= 999 / 1000 -> 0 < @squarecb_gamma RF gs ge counter ->
  ws_predict dbg ((w, @KSquareCb (F RF) ueps gs ge counter, ch) : red RF (S n)) fts = Ok (p, fts') ->
  exists scores probs explored : list (N * R), ws_predict dbg ch fts = Ok (PrScores scores, fts') /\ p = PrProbs probs /\
    @squarecb_probs RF dbg 0 (@squarecb_gamma RF gs ge counter) scores = Ok explored /\
    forall (f : N -> R) lo hi a c, within lo hi f scores -> In (a, c) scores ->
      expect f probs <= f a + ueps * (hi - lo) + 2 * (INR (length scores) - 1) / @squarecb_gamma RF gs ge counter
        + @squarecb_gamma RF gs ge counter / 4 * score_error f scores explored.
Proof. exact squarecb_stack. Qed.
Print Assumptions C68_squarecb_stack.

Example C68_example :
  0 <= 1 / 10 <= 999 / 1000 /\ 0 < 10 /\ NoDup (map fst [(0%N, 3); (1%N, 1)]) /\
  within 0 4 (fun a => if (a =? 0)%N then 1 else 4) [(0%N, 3); (1%N, 1)] /\
  accurate 3 (fun a => if (a =? 0)%N then 1 else 4) [(0%N, 3); (1%N, 1)] /\
  In (0%N, 3) [(0%N, 3); (1%N, 1)] /\ nonneg [(0%N, 1 / 4); (1%N, 3 / 4)] /\ total [(0%N, 1 / 4); (1%N, 3 / 4)] = 1.
Proof.
  split; [lra|]. split; [lra|]. split; [simpl; repeat constructor; simpl; intuition discriminate|].
  split; [intros a c [H|[H|[]]]; inversion H; subst; simpl; lra|].
  split; [intros a c [H|[H|[]]]; inversion H; subst; simpl; apply Rabs_le; lra|].
  split; [now left|]. split; [intros a c [H|[H|[]]]; inversion H; subst; lra|simpl; lra].
Qed.
Example C68_stack_example : 0 < @squarecb_gamma RF 10 (1 / 2) 3 /\
  exists p f', ws_predict false ex_sq (FtsCb None [[]; []]) = Ok (p, f').
Proof. exact (conj ex_sq_gamma ex_sq_ok). Qed.

(** C69.  The ips metric is an unbiased estimate: over any interaction of n rounds in
    which the logging policy gives positive probability to each action of the evaluated
    policy, the metric always has a value, and the expectation of that value is the
    evaluated policy's expected reward per round.  Both policies may depend on
    everything logged before: the statement covers a policy that is being trained. *)
Theorem C69_ips_unbiased : forall n g, fair n g -> (0 < n)%nat ->
  exists v : list (point RF) -> R,
    (forall l, log_of g l -> forall dbg, (let* m := add_points ips_new l in metric_value dbg m) = Ok (MVFloat (v l))) /\
    mean_over g v = true_reward g / INR n.
Proof. exact ips_unbiased. Qed.
Print Assumptions C69_ips_unbiased.

(** two rounds, the second of which depends on the action drawn in the first *)
Example C69_example : fair 2 (Round (FtsCb None []) [(0%N, 1 / 4); (1%N, 3 / 4)] (fun a => INR (N.to_nat a)) [(1%N, 1 / 2); (0%N, 1 / 2)]
  (fun a => if (a =? 0)%N then Round (FtsCb None []) [(0%N, 1)] (fun _ => 2) [(0%N, 1)] (fun _ => Over)
            else Round (FtsCb None []) [(0%N, 1 / 2); (1%N, 1 / 2)] (fun _ => 3) [(0%N, 1); (1%N, 0)] (fun _ => Over))).
Proof.
  assert (Two : forall x y : R, NoDup (map fst [(0%N, x); (1%N, y)])) by (intros; simpl; repeat constructor; simpl; intuition discriminate).
  constructor; auto.
  - intros a p [H|[H|[]]]; inversion H; lra.
  - simpl; lra.
  - simpl; repeat constructor; simpl; intuition discriminate.
  - simpl. tauto.
  - intros a [H|[H|[]]]; simpl in H; subst a; simpl; constructor; auto.
    + intros a p [H|[]]; inversion H; lra.
    + simpl; lra.
    + simpl; repeat constructor; simpl; auto.
    + simpl; repeat constructor; simpl; auto.
    + simpl; tauto.
    + intros; constructor.
    + intros a p [H|[H|[]]]; inversion H; lra.
    + simpl; lra.
    + simpl; tauto.
    + intros; constructor.
Qed.

(** Without positive probability for each action it is false: an action that is never
    logged is left out of the estimate. *)
Theorem C69_unseen_action_refuted : exists v : list (point RF) -> R,
  (forall l, log_of unseen l -> forall dbg, (let* m := add_points ips_new l in metric_value dbg m) = Ok (MVFloat (v l))) /\
  mean_over unseen v = - (1 / 2) /\ true_reward unseen = - (1).
Proof. exact unseen_biased. Qed.
Print Assumptions C69_unseen_action_refuted.

(** C69.  The labels that ips training makes up are unbiased: over the draw of the logged
    action, the label of each action has its true cost as expectation. *)
Theorem C69_ips_labels : forall dbg (logging : list (N * R)) (cost : N -> R) i,
  (forall a p, In (a, p) logging -> 0 < p) -> NoDup (map fst logging) -> In i (map fst logging) ->
  exists y : N -> R, (forall a p, In (a, p) logging -> @ips_label RF dbg a (cost a) p i = Ok (LbSimple (y a) 1)) /\
    expect y logging = cost i.
Proof. exact ips_labels_unbiased. Qed.
Print Assumptions C69_ips_labels.

Example C69_labels_example : (forall a p, In (a, p) [(0%N, 1 / 4); (1%N, 3 / 4)] -> 0 < p) /\
  NoDup (map fst [(0%N, 1 / 4); (1%N, 3 / 4)]) /\ In 1%N (map fst [(0%N, 1 / 4); (1%N, 3 / 4)]).
Proof.
  split; [intros a p [H|[H|[]]]; inversion H; lra|]. split; [simpl; repeat constructor; simpl; intuition discriminate|simpl; tauto].
Qed.
