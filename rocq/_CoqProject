-Q theories Verif
theories/Base.v
theories/BaseLemmas.v
theories/IntModel.v
theories/IntProofs.v
theories/IntProofs2.v
theories/IntProofs3.v
theories/IntSpec.v
theories/IntProps.v
theories/DivModel.v
theories/DivProofs.v
theories/DivProofs2.v
theories/DivProofs3.v
theories/RegModel.v
theories/DivProofs4.v
theories/DivProofs5.v
theories/DivSpec.v
theories/DivProps.v
theories/BigModel.v
theories/BigProofs.v
theories/BigProofs2.v
theories/BigProofs3.v
theories/BigProps.v
theories/MemModel.v
theories/MemProofs.v
theories/MemProofs2.v
theories/MemProofs3.v
theories/MemProofs4.v
theories/MemProofs5.v
theories/MemProofs6.v
theories/MemProofs7.v
theories/MemProofs8.v
theories/MemProofs9.v
theories/MemSpec.v
theories/MemProps.v
theories/FloatModel.v
theories/FloatSpec.v
theories/FloatProofs.v
theories/FloatProofs2.v
theories/FloatProofs3.v
theories/FloatProofs4.v
theories/FloatProofs5.v
theories/FloatProofs6.v
theories/FloatProofs7.v
theories/FloatProps.v
theories/FloatConvModel.v
theories/FloatConvSpec.v
theories/FloatConvProofs.v
theories/FloatConvProofs2.v
theories/FloatConvProofs3.v
theories/FloatConvProofs4.v
theories/FloatConvProofs5.v
theories/FloatLib.v
theories/FloatConvProps.v
theories/FloatDivModel.v
theories/FloatDivProofs.v
theories/FloatDivProofs2.v
theories/FloatDivProofs3.v
theories/FloatDivProofs4.v
theories/FloatPowSpec.v
theories/FloatPowProofs.v
theories/FloatDivProps.v
theories/LibmModel.v
theories/LibmSpec.v
theories/LibmProofs.v
theories/LibmProofs2.v
theories/LibmProofs3.v
theories/LibmProofs4.v
theories/LibmProofs5.v
theories/LibmProofs6.v
theories/LibmProps.v
theories/RemModel.v
theories/RemSpec.v
theories/RemProofs.v
theories/RemProofs2.v
theories/RemProofs3.v
theories/RemProps.v
theories/FmaModel.v
theories/FmaSpec.v
theories/FmaProofs.v
theories/FmaProofs2.v
theories/FmaProofs3.v
theories/FmaProofs4.v
theories/FmaProofs5.v
theories/FmaProofs6.v
theories/FmaProps.v
theories/FmaProofs7.v
theories/PromoteProofs.v
theories/PromoteProps.v
theories/SqrtModel.v
theories/SqrtSpec.v
theories/SqrtProofs.v
theories/SqrtProofs2.v
theories/SqrtProofs3.v
theories/SqrtProofs4.v
theories/SqrtProps.v
theories/HexModel.v
theories/HexSpec.v
theories/HexProofs.v
theories/HexProofs2.v
theories/HexProofs3.v
theories/HexProofs4.v
theories/HexProofs5.v
theories/HexProofs6.v
theories/HexProofs7.v
theories/HexProps.v
theories/AtomicSpec.v
theories/AtomicModel.v
theories/AtomicProofs.v
theories/AtomicProofs2.v
theories/AtomicProofs3.v
theories/AtomicProofs4.v
theories/AtomicProofs5.v
theories/AtomicProps.v
theories/AtomicA64Model.v
theories/AtomicA64Proofs.v
theories/AtomicA64Proofs2.v
theories/AtomicA64Proofs3.v
theories/AtomicA64Proofs4.v
theories/AtomicA64Proofs5.v
theories/AtomicA64Proofs6.v
theories/AtomicA64Props.v
theories/ProbeModel.v
theories/ProbeSpec.v
theories/ProbeProofs.v
theories/ProbeProofs2.v
theories/ProbeProofs3.v
theories/ProbeProofs4.v
theories/ProbeProofs5.v
theories/ProbeProofs6.v
theories/ProbeProps.v
theories/FloatErr.v
theories/Elem.v
theories/PolyBound.v
theories/ElemModel.v
theories/ElemSpec.v
theories/F64Lib.v
theories/ExpProofs.v
theories/ExpProofs2.v
theories/ExpProofs3.v
theories/ExpProofs4.v
theories/ExpProofs5.v
theories/ExpProofs6.v
theories/ExpProofs7.v
theories/ExpProofs8.v
theories/ElemProps.v
theories/LogProofs.v
theories/LogProofs2.v
theories/LogProofs3.v
theories/LogProofs4.v
theories/LogProps.v
theories/TrigModel.v
theories/TrigProofs.v
theories/TrigProofs2.v
theories/TrigProofs3.v
theories/TrigProofs4.v
theories/TrigPi.v
theories/TrigDist.v
theories/TrigRed.v
theories/TrigRed2.v
theories/TrigRed3.v
theories/TrigRed4.v
theories/TrigRed5.v
theories/TrigLg.v
theories/TrigLg2.v
theories/TrigLg3.v
theories/TrigLg4.v
theories/TrigLg5.v
theories/TrigLg6.v
theories/TrigLg7.v
theories/TrigLg8.v
theories/TrigLg9.v
theories/TrigLg10.v
theories/TrigLg11.v
theories/TrigProps.v
theories/HypotModel.v
theories/HypotProofs.v
theories/HypotProofs2.v
theories/HypotProofs3.v
theories/HypotProofs4.v
theories/HypotProofs5.v
theories/HypotProofs6.v
theories/HypotProofs7.v
theories/HypotProofs8.v
theories/HypotProofs9.v
theories/HypotProofs10.v
theories/HypotProps.v
theories/AtanModel.v
theories/AtanProofs.v
theories/AtanProofs2.v
theories/AtanProofs3.v
theories/AtanProps.v
theories/Atan2Model.v
theories/Atan2Proofs.v
theories/Atan2Proofs2.v
theories/Atan2Proofs3.v
theories/Atan2Props.v
theories/AsinModel.v
theories/AsinProofs.v
theories/AsinProofs2.v
theories/AsinProofs3.v
theories/AsinProofs4.v
theories/AsinProofs5.v
theories/AsinProps.v
theories/TanModel.v
theories/TanProofs.v
theories/TanProofs2.v
theories/TanProofs3.v
theories/TanProofs4.v
theories/TanProofs5.v
theories/TanProps.v
theories/Log1pModel.v
theories/Log1pProofs.v
theories/Log1pProofs2.v
theories/Log1pProps.v
theories/Log2Model.v
theories/Log2Proofs.v
theories/Log2Proofs2.v
theories/Log2Proofs3.v
theories/Log2Proofs4.v
theories/Log2Proofs5.v
theories/Log2Proofs6.v
theories/Log2Props.v
theories/AreaModel.v
theories/AreaProofs.v
theories/AreaProofs2.v
theories/AreaProofs3.v
theories/AreaProofs4.v
theories/AreaProps.v
theories/OddProofs.v
theories/OddProps.v
theories/ParityProofs.v
theories/ParityProofs2.v
theories/ParityProofs3.v
theories/ParityProofs4.v
theories/ParityProps.v
theories/SinCosProofs.v
theories/SinCosProps.v
