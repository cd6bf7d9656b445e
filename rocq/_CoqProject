-Q theories Verif

theories/F64.v
theories/F64Lemmas.v
theories/F64Err.v
theories/ListAux.v
theories/VariableModel.v
theories/VariableSpec.v
theories/VariableProofs.v
theories/DataSetModel.v
theories/DataSetSpec.v
theories/DataSetProofs.v
theories/GridSpec.v
theories/GridProofs.v
theories/DataSetProofs2.v
theories/DataSetProps.v
theories/BinModel.v
theories/BinSpec.v
theories/BinProofs.v
theories/BinGeom.v
theories/BinProofs2.v
theories/GridProofs2.v
theories/BinProps.v
theories/LeafGen.v
theories/LeafFormulas.v
theories/DeviceModel.v
theories/PdfModel.v
theories/PdfSpec.v
theories/FlatProofs.v
theories/EvalProofs.v
theories/HostProofs.v
theories/PdfProofs.v
theories/PdfProofs2.v
theories/PdfProofs3.v
theories/PdfProofs4.v
theories/PdfProps.v
theories/Reduce.v
theories/NormModel.v
theories/NormSpec.v
theories/NormProofs.v
theories/NormProofs2.v
theories/CombineSpec.v
theories/CombineProofs.v
theories/NormProofs3.v
theories/NormProps.v
theories/RunModel.v
theories/RunSpec.v
theories/RunProofs.v
theories/RunProofs2.v
theories/RunProofs3.v
theories/RunProofs4.v
theories/RunProofs5.v
theories/RunProofs6.v
theories/RunProps.v
theories/UtilModel.v
theories/UtilProofs.v
theories/UtilProps.v
theories/IoModel.v
theories/IoSpec.v
theories/IoProofs.v
theories/IoProps.v
theories/MpiModel.v
theories/MpiProofs.v
theories/MpiProps.v
theories/FitModel.v
theories/FitSpec.v
theories/FitProofs.v
theories/FitProofs2.v
theories/FitProofs3.v
theories/FitProofs4.v
theories/FitProps.v
theories/GaussInt.v
theories/FormulaSpec.v
theories/FormulaProofs.v
theories/PolyProofs.v
theories/FormulaProofs2.v
theories/AnalyticProofs.v
theories/FormulaProps.v
theories/SmoothModel.v
theories/SmoothSpec.v
theories/SmoothProofs.v
theories/SmoothProofs2.v
theories/SmoothProps.v
theories/CacheModel.v
theories/CacheSpec.v
theories/CacheProps.v
theories/ConvModel.v
theories/ConvSpec.v
theories/ConvProofs.v
theories/ConvProofs2.v
theories/ConvProps.v
theories/KinModel.v
theories/KinSpec.v
theories/KinProofs.v
theories/KinProofs2.v
theories/KinProps.v
theories/McModel.v
theories/McSpec.v
theories/McProofs.v
theories/McProofs2.v
theories/McProofs3.v
theories/McProps.v
theories/AmpModel.v
theories/AmpSpec.v
theories/AmpProofs.v
theories/AmpProps.v
theories/AmpDevice.v
theories/AmpDevProofs.v
theories/AmpDevProps.v
theories/Amp4Model.v
theories/Amp4Spec.v
theories/Amp4Proofs.v
theories/Amp4Props.v
theories/SplineModel.v
theories/SplineSpec.v
theories/SplineProofs.v
theories/SplineProps.v
theories/ResolModel.v
theories/ResolSpec.v
theories/ResolMoment.v
theories/ResolProofs.v
theories/ResolProofs2.v
theories/ResolProofs3.v
theories/ResolProofs4.v
theories/ResolProps.v
theories/SpliceModel.v
theories/SpliceSpec.v
theories/SpliceProofs.v
theories/SpliceProofs2.v
theories/SpliceProofs3.v
theories/SpliceProofs4.v
theories/SpliceProps.v
theories/TdModel.v
theories/TdSpec.v
theories/TdProofs.v
theories/TdProps.v
theories/WaveModel.v
theories/WaveSpec.v
theories/WaveProofs.v
theories/WaveProps.v
theories/KmModel.v
theories/KmSpec.v
theories/KmProofs.v
theories/KmProps.v
theories/LineModel.v
theories/LineSpec.v
theories/LineProofs.v
theories/LineProofs2.v
theories/LineProps.v
theories/SplModel.v
theories/SplSpec.v
theories/SplProofs.v
theories/SplProps.v
theories/SpinModel.v
theories/SpinSpec.v
theories/SpinProofs.v
theories/SpinProofs2.v
theories/SpinProps.v
theories/InterModel.v
theories/InterSpec.v
theories/InterProps.v
theories/Td4Model.v
theories/Td4Spec.v
theories/Td4Proofs.v
theories/Td4Proofs2.v
theories/Td4Props.v
theories/Dim5Model.v
theories/Dim5Spec.v
theories/Dim5Proofs.v
theories/Dim5Proofs2.v
theories/Dim5Proofs3.v
theories/Dim5Proofs4.v
theories/Dim5Props.v
theories/PlotModel.v
theories/PlotProofs.v
theories/PlotProps.v
theories/GenModel.v
theories/GenProofs.v
theories/GenProps.v
theories/FadModel.v
theories/FadSpec.v
theories/FadProofs.v
theories/FadProofs2.v
theories/FadProofs3.v
theories/FadProps.v
theories/CalcModel.v
theories/CalcProofs.v
theories/CalcProps.v
theories/WorkModel.v
theories/WorkSpec.v
theories/WorkProps.v
theories/ShareModel.v
theories/ShareProps.v
theories/AskSpec.v
theories/AskProofs.v
theories/AskProofs2.v
theories/AskProps.v
