-Q theories Verif
theories/CppBase.v
theories/CppFacts.v
theories/Bloom_Model.v
theories/Bloom_Spec.v
theories/Bloom_Proofs.v
theories/Bloom_Props.v
theories/Dbl.v
theories/DblFacts.v
theories/Cuckoo_Model.v
theories/Cuckoo_Spec.v
theories/Cuckoo_Proofs.v
theories/Cuckoo_Proofs2.v
theories/Cuckoo_Proofs3.v
theories/Cuckoo_Props.v
theories/NumOps.v
theories/Reservoir_Model.v
theories/Reservoir_Spec.v
theories/Reservoir_Proofs.v
theories/Reservoir_Prob.v
theories/Reservoir_Exp.v
theories/Reservoir_Props.v
theories/NumFacts.v
theories/Metrics_Model.v
theories/Metrics_Spec.v
theories/Metrics_Proofs.v
theories/Metrics_Props.v
theories/Utils_Model.v
theories/Utils_Spec.v
theories/Utils_Proofs.v
theories/Utils_Props.v
theories/LTC_Model.v
theories/LTC_Spec.v
theories/LTC_Proofs.v
theories/LTC_Props.v
theories/Chained_Model.v
theories/Chained_Spec.v
theories/Chained_Proofs.v
theories/Chained_Props.v
theories/Bayes_Model.v
theories/Bayes_Spec.v
theories/Bayes_Proofs.v
theories/Bayes_Props.v
theories/Perceptron_Model.v
theories/Perceptron_Spec.v
theories/Perceptron_Proofs.v
theories/Perceptron_Weights.v
theories/Perceptron_Gradient.v
theories/Perceptron_Props.v
theories/MCNN_Model.v
theories/MCNN_Spec.v
theories/MCNN_Proofs.v
theories/MCNN_Num.v
theories/MCNN_Props.v
theories/Hoeffding_Model.v
theories/Hoeffding_Spec.v
theories/Hoeffding_Proofs.v
theories/Hoeffding_Num.v
theories/Hoeffding_Once.v
theories/Hoeffding_Route.v
theories/Hoeffding_Gain.v
theories/Hoeffding_Props.v
theories/Mondrian_Model.v
theories/Mondrian_Spec.v
theories/Mondrian_Proofs.v
theories/Mondrian_Train.v
theories/Mondrian_Forest.v
theories/Mondrian_Num.v
theories/Mondrian_Predict.v
theories/Mondrian_Reach.v
theories/Mondrian_Runs.v
theories/Mondrian_Props.v
theories/Mondrian_Smooth_Spec.v
theories/Mondrian_Smooth_Proofs.v
theories/Mondrian_Smooth_Props.v
theories/Unbound_Model.v
theories/Unbound_Spec.v
theories/Unbound_Count.v
theories/Unbound_Train.v
theories/Unbound_Forest.v
theories/Unbound_Reach.v
theories/Unbound_Props.v
theories/Coarse_Model.v
theories/Coarse_Spec.v
theories/Coarse_Heap.v
theories/Coarse_Walk.v
theories/Coarse_Train.v
theories/Coarse_Trim.v
theories/Coarse_Forest.v
theories/Coarse_Reach.v
theories/Coarse_Tidy.v
theories/Coarse_Props.v
theories/Coarse_Smallest.v
theories/Coarse_Trim_Props.v
theories/Forest_Spec.v
theories/Forest_Same.v
theories/Forest_Steps.v
theories/Forest_Train.v
theories/Forest_Predict.v
theories/Forest_Props.v
theories/Forest_Coarse.v
theories/Forest_Shared.v
theories/Forest_Coarse_Props.v
theories/Coarse_Total.v
theories/Coarse_Defined.v
theories/Coarse_Trim_Total.v
theories/Coarse_Branch.v
theories/Coarse_Steady.v
theories/Coarse_Total_Props.v
theories/Coarse_Predict.v
theories/Coarse_Recount.v
theories/Coarse_Predict_Props.v
theories/Forest_Sim.v
theories/Coarse_Sim.v
theories/Coarse_Innocent.v
theories/Coarse_Innocent_Props.v
theories/Mondrian_Innocent.v
theories/Mondrian_Innocent_Props.v
theories/Coarse_Print_Model.v
theories/Coarse_Print_Spec.v
theories/Coarse_Print.v
theories/Coarse_Print_Props.v
theories/Coarse_Fade_Spec.v
theories/Coarse_Fade.v
theories/Coarse_Score.v
theories/Coarse_Lowest.v
theories/Coarse_Fade_Reach.v
theories/Coarse_Fade_Props.v
theories/Coarse_Center.v
theories/Coarse_Center_Forest.v
theories/Coarse_Center_Laws.v
theories/Coarse_Center_Props.v
theories/Coarse_Sides_Spec.v
theories/Coarse_Sides.v
theories/Coarse_Sides_Props.v
theories/Coarse_Place.v
theories/Coarse_Place_Props.v
theories/Coarse_Center_Predict.v
theories/Coarse_Center_Predict_Props.v
theories/Coarse_Boxes.v
theories/Coarse_Boxes_Props.v
theories/Coarse_Stretch_Props.v
theories/Coarse_Sums.v
theories/Coarse_Sums_Props.v
