-Q theories Verif
theories/Base.v
theories/Numeric.v
theories/NumericProofs.v
theories/Properties_Numeric.v
theories/HP.v
theories/HPProofs.v
theories/Properties_HP.v
theories/Properties_Ctor.v
theories/Cond.v
theories/Forb.v
theories/Dag.v
theories/ListFacts.v
theories/DagCycle.v
theories/EqFacts.v
theories/DagProofs.v
theories/Space.v
theories/CommitProofs.v
theories/Spec.v
theories/SpaceProofs.v
theories/CnodeProofs.v
theories/ForbProofs.v
theories/EvalProofs.v
theories/ForbEval.v
theories/MergeProofs.v
theories/AddProofs.v
theories/Ex.v
theories/Properties_Graph.v
theories/Properties_Eval.v
theories/ValidProofs.v
theories/ConfigProofs.v
theories/ChangeProofs.v
theories/OrderProofs.v
theories/PassProofs.v
theories/ReadProofs.v
theories/Properties_Config.v
theories/Properties_Change.v
theories/SampleProofs.v
theories/Properties_Sample.v
theories/Properties_Size.v
theories/Dist.v
theories/DistProofs.v
theories/Properties_Dist.v
theories/LookupProofs.v
theories/Util.v
theories/ExchangeProofs.v
theories/Properties_Exchange.v
theories/Random.v
theories/Properties_Raise.v
theories/Properties_Random.v
theories/Repair.v
theories/Properties_Repair.v
theories/Grid.v
theories/Properties_Grid.v
theories/Fix.v
theories/Properties_Fix.v
theories/Properties_Add.v
theories/Serial.v
theories/Properties_Serial.v
theories/Priors.v
theories/Properties_Priors.v
theories/Subspace.v
theories/RenameProofs.v
theories/Properties_Sub.v
theories/Properties_SubParent.v
theories/Alias.v
theories/AliasProofs.v
theories/Properties_Alias.v
theories/Properties_Equal.v
theories/Properties_Args.v
theories/Api.v
theories/Properties_Api.v
theories/Cache.v
theories/Properties_Cache.v
theories/Pcs.v
theories/PcsProofs.v
theories/PcsOld.v
theories/PcsText.v
theories/Properties_PcsWords.v
theories/Properties_Pcs.v
theories/Properties_PcsWrite.v
theories/Properties_PcsOld.v
theories/Properties_PcsOldWrite.v
theories/Put.v
theories/Properties_Put.v
theories/Convert.v
theories/Properties_Convert.v
theories/Json.v
theories/Properties_Json.v
theories/Array.v
theories/Properties_Array.v
theories/Properties_Guards.v
theories/Float.v
theories/FloatProofs.v
theories/FloatRound.v
theories/Properties_Float.v
theories/Properties_Round.v
theories/FloatLog.v
theories/Properties_FloatLog.v
theories/FloatCond.v
theories/Properties_FloatCond.v
theories/Old.v
theories/Properties_Old.v
theories/Properties_Reach.v
theories/Properties_Mass.v
theories/Bounds.v
theories/Properties_Bounds.v
theories/Seq.v
theories/Properties_Seq.v
theories/Properties_Assign.v
theories/Properties_Walk.v
theories/Properties_Order.v
theories/Life.v
theories/Properties_Life.v
theories/Properties_Tried.v
theories/Properties_Grow.v
theories/Properties_Impute.v
theories/Properties_Alike.v
theories/Properties_Load.v
theories/Properties_PcsRead.v
theories/ToDict.v
theories/Properties_ToDict.v
theories/FloatWeights.v
theories/Properties_FloatWeights.v
theories/Properties_EntryDensity.v
theories/Properties_Chance.v
theories/Properties_Uniform.v
theories/Properties_FloatSample.v
theories/Properties_Together.v
theories/Properties_Parts.v
theories/Properties_Marginal.v
theories/Properties_Symmetric.v
theories/Properties_Default.v
theories/Properties_Product.v
theories/Properties_Clause.v
theories/Properties_Nest.v
theories/Properties_Worn.v
theories/Properties_GridOrder.v
theories/Properties_NestGrid.v
theories/Properties_NestDefault.v
theories/Properties_TwoSubs.v
theories/Properties_NestNear.v
theories/Assumptions.v
